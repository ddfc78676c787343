(** * Looking up a coefficient up to a tolerance *)

From Coq Require Import List Bool.
From Verif Require Import Base TimeOrder Num Manager.
Import ListNotations.

Section Tolerance.
Context {T C : Type} `{Num T}.
Local Open Scope num_scope.

(** The private hasCoefficientAtTime(time, it, tol), LocalSupport2CoefficientManager-inl.hpp lines 400-413:
    the result and the node the iterator is left at, [None] for end(). [x >= y] is [y <= x]. *)
Fixpoint scan_within (l : list (@node T C)) (t tol : T) : bool * option (@node T C) :=
  match l with
  | [] => (false, None)
  | n :: r =>
      if nleb (t - tol) (n_time n) then
        if nleb (n_time n) (t + tol) then (true, Some n) else (false, Some n)
      else scan_within r t tol
  end.
End Tolerance.
