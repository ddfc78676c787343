(** * What the sampling policies are meant to leave on a curve

    In terms of the sequence of measurements only. *)

From Coq Require Import List Bool Arith ZArith.
From Verif Require Import TimeOrder.
Import ListNotations.

(** The elements of a list at the positions satisfying [f], in order. *)
Definition select {A} (f : nat -> bool) (l : list A) : list A :=
  map snd (filter (fun ix => f (fst ix)) (combine (seq 0 (length l)) l)).

(** Quotient rounded up. *)
Definition ceil_div (a n : nat) : nat := (a + n - 1) / n.

(** Times strictly increase. *)
Fixpoint increasing {T V} `{TimeOps T} (l : list (T * V)) : Prop :=
  match l with
  | [] => True
  | a :: r => match r with [] => True | b :: _ => tlt (fst a) (fst b) = true end /\ increasing r
  end.

Section Slerp.
(** Of [m] measurements with sampling ratio [n], number [i] (from 0) is permanent. *)
Definition slerp_permanent (n i : nat) : bool := (i <? 2) || ((i - 1) mod n =? 0).
(** It is on the curve. *)
Definition slerp_kept (n m i : nat) : bool := slerp_permanent n i || (i =? m - 1).
End Slerp.

Section Hermite.
Context {T V D : Type} `{TimeOps T}.
Variable dzero : D.
Variable slope : T -> T -> V -> V -> D.
Variable tadd : T -> T -> T.

(** Derivative at a permanent coefficient with given neighbours: slope between
    the neighbours, one sided at the ends, zero if alone. *)
Definition knot_derivative (prev : option (T * V)) (x : T * V) (next : option (T * V)) : D :=
  match prev, next with
  | None, None => dzero
  | None, Some b => slope (fst x) (fst b) (snd x) (snd b)
  | Some a, None => slope (fst a) (fst x) (snd a) (snd x)
  | Some a, Some b => slope (fst a) (fst b) (snd a) (snd b)
  end.

Fixpoint knots_from (prev : option (T * V)) (l : list (T * V)) : list (T * (V * D)) :=
  match l with
  | [] => []
  | x :: r => (fst x, (snd x, knot_derivative prev x (hd_error r))) :: knots_from (Some x) r
  end.

(** Permanent coefficients with their derivatives. *)
Definition knots (l : list (T * V)) : list (T * (V * D)) := knots_from None l.

(** The temporary coefficient, from the permanent measurements and those taken
    since: the newest measurement, with the derivative of the last permanent
    coefficient when it is the only one since, and otherwise the slope from the
    last permanent measurement to it. *)
Definition temporary (perm pending : list (T * V)) : list (T * (V * D)) :=
  match rev pending, rev perm with
  | e :: r, y :: before =>
      [(fst e, (snd e, match r with
                       | [] => knot_derivative (hd_error before) y None
                       | _ => slope (fst y) (fst e) (snd y) (snd e)
                       end))]
  | _, _ => []
  end.

(** A new measurement becomes permanent if it is the first one, or if at least
    [n] were taken since the last permanent one and its time is more than the
    period [p] later; otherwise it is pending. *)
Definition sample (n : nat) (p : T) (s : list (T * V) * list (T * V)) (x : T * V)
  : list (T * V) * list (T * V) :=
  let '(perm, pending) := s in
  match rev perm with
  | [] => (perm ++ [x], [])
  | y :: _ =>
      if (n <=? length pending) && tlt (tadd (fst y) p) (fst x)
      then (perm ++ [x], []) else (perm, pending ++ [x])
  end.

Definition sampled (n : nat) (p : T) (ms : list (T * V)) : list (T * V) * list (T * V) :=
  fold_left (sample n p) ms ([], []).

End Hermite.
