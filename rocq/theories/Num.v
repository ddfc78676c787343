(** * Arithmetic

    The numeric code is written once over this record of operations on C++
    [double]s and instantiated with
    - the reals: idealised arithmetic without rounding, for the theorems;
    - the rationals: for executable examples;
    - IEEE binary64 (Flocq, in [NumB64.v]): for the theorems about rounding. *)

From Coq Require Import List ZArith Bool Reals Lra QArith Qreduction.
From Verif Require Import TimeOrder TimeInst.
Import ListNotations.

(** Arithmetic on [double] as written in the C++ source; the laws are those of the instance.
    The literals and operators are those of PolynomialSpline.hpp lines 104-119 and CubicHermiteE3Curve.cpp lines 107-111 and 206-227, among others. *)
Class Num (S : Type) := {
  nofZ : Z -> S;               (* a literal *)
  nadd : S -> S -> S;
  nsub : S -> S -> S;
  nmul : S -> S -> S;
  ndiv : S -> S -> S;
  nopp : S -> S;
  nltb : S -> S -> bool;       (* operator< *)
  nleb : S -> S -> bool;       (* operator<= *)
  neqb : S -> S -> bool        (* operator== *)
}.

Declare Scope num_scope.
Delimit Scope num_scope with num.
Notation "a + b" := (nadd a b) : num_scope.
Notation "a - b" := (nsub a b) : num_scope.
Notation "a * b" := (nmul a b) : num_scope.
Notation "a / b" := (ndiv a b) : num_scope.
Notation "- a" := (nopp a) : num_scope.
Notation "# z" := (nofZ z) (at level 1, format "# z") : num_scope.

Section Std.
Context {S : Type} `{Num S}.
Local Open Scope num_scope.

(** std::max(a, b) is [(a < b) ? b : a], std::min(a, b) is [(b < a) ? b : a].
    PolynomialSpline.hpp lines 106, 112 and 118. *)
Definition nmax (a b : S) : S := if nltb a b then b else a.
(** PolynomialSpline.hpp lines 106, 112 and 118. *)
Definition nmin (a b : S) : S := if nltb b a then b else a.

(** boost::math::pow<N>, as expanded by boost/math/special_functions/pow.hpp
    (positive_power: [power * power], and [base * power * power] for odd N, where power is the
    power of N/2; products associate to the left).
    pow<2>, polynomial_splines_traits.hpp lines 134, 154, 175. *)
Definition npow2 (x : S) : S := x * x.
(** pow<3>, polynomial_splines_traits.hpp lines 171, 219, 271. *)
Definition npow3 (x : S) : S := x * x * x.
(** pow<4>, polynomial_splines_traits.hpp lines 215 and 266. *)
Definition npow4 (x : S) : S := (x * x) * (x * x).
(** pow<5>, polynomial_splines_traits.hpp line 261. *)
Definition npow5 (x : S) : S := x * (x * x) * (x * x).

(** std::inner_product(first1, last1, first2, init): accumulates from the left.
    The two ranges have the same length wherever it is used.
    PolynomialSpline.hpp lines 105, 111 and 117. *)
Fixpoint inner_product (l1 l2 : list S) (init : S) : S :=
  match l1, l2 with
  | a :: r1, b :: r2 => inner_product r1 r2 (init + a * b)
  | _, _ => init
  end.

End Std.

#[global] Instance R_Num : Num R := {
  nofZ := IZR; nadd := Rplus; nsub := Rminus; nmul := Rmult; ndiv := Rdiv; nopp := Ropp;
  nltb := Rltb; nleb := fun a b => negb (Rltb b a);
  neqb := fun a b => negb (Rltb a b) && negb (Rltb b a)
}.

(** Results are reduced so that examples stay readable. *)
#[global] Instance Q_Num : Num Q := {
  nofZ := inject_Z;
  nadd := fun a b => Qred (a + b); nsub := fun a b => Qred (a - b);
  nmul := fun a b => Qred (a * b); ndiv := fun a b => Qred (a / b);
  nopp := fun a => Qred (- a);
  nltb := fun a b => match Qcompare a b with Lt => true | _ => false end;
  nleb := Qle_bool; neqb := Qeq_bool
}.

(** Rewrites the operations of the real instance into those of [Reals]. *)
Ltac numR :=
  cbn [nofZ nadd nsub nmul ndiv nopp nltb nleb neqb R_Num] in *.

Lemma Rleb_le a b : negb (Rltb b a) = true <-> (a <= b)%R.
Proof. rewrite negb_true_iff. apply Rltb_ge. Qed.

Lemma Rleb_gt a b : negb (Rltb b a) = false <-> (b < a)%R.
Proof. rewrite negb_false_iff. apply Rltb_lt. Qed.

Lemma Reqb_eq (a b : R) : neqb a b = true <-> a = b.
Proof.
  numR. rewrite andb_true_iff, !negb_true_iff, !Rltb_ge. lra.
Qed.

Lemma Reqb_neq (a b : R) : neqb a b = false <-> a <> b.
Proof.
  rewrite <- not_true_iff_false, Reqb_eq. tauto.
Qed.

Lemma nmaxR (a b : R) : nmax a b = Rmax a b.
Proof.
  unfold nmax. numR. destruct (Rltb a b) eqn:E.
  - apply Rltb_lt in E. rewrite Rmax_right; lra.
  - apply Rltb_ge in E. rewrite Rmax_left; lra.
Qed.

Lemma nminR (a b : R) : nmin a b = Rmin a b.
Proof.
  unfold nmin. numR. destruct (Rltb b a) eqn:E.
  - apply Rltb_lt in E. rewrite Rmin_right; lra.
  - apply Rltb_ge in E. rewrite Rmin_left; lra.
Qed.
