(** * What the discrete and semi-discrete curves are meant to do *)

From Coq Require Import List Reals.
From Verif Require Import Base Discrete.
Import ListNotations.
Local Open Scope R_scope.

(** Composition of poses is a group. *)
Class GroupLaws (V : Type) `{GroupOps V} := {
  gmul_assoc : forall a b c : V, gmul a (gmul b c) = gmul (gmul a b) c;
  gone_l : forall a : V, gmul gone a = a;
  ginv_l : forall a : V, gmul (ginv a) a = gone
}.

(** What is needed of the logarithm and exponential: one-parameter subgroups,
    and exp(log g) = g. *)
Record exp_log {V W} `{GroupOps V} (vexp : W -> V) (vlog : V -> W) (vscale : W -> R -> W) : Prop := {
  el_inverse : forall g, vexp (vscale (vlog g) 1) = g;
  el_add : forall w a b, vexp (vscale w (a + b)) = gmul (vexp (vscale w a)) (vexp (vscale w b));
  el_one : forall a, vexp (vscale (vlog gone) a) = gone
}.

(** Among the data points [l], [v] is that of a time nearest to [t], the
    earlier one if two are equally near. *)
Definition nearest {V} (l : list (R * V)) (t : R) (v : V) : Prop :=
  exists tk, In (tk, v) l /\
    forall t' v', In (t', v') l ->
      Rabs (t - tk) <= Rabs (t - t') /\ (Rabs (t - tk) = Rabs (t - t') -> tk <= t').

(** A function applied to the result of a call. *)
Definition omap {A B} (f : A -> B) (o : outcome A) : outcome B := bind o (fun x => Ok (f x)).
