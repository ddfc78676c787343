(** * Model of SlerpSE2Curve

    Sources: /repo/curves/src/SlerpSE2Curve.cpp, /repo/curves/include/curves/SlerpSE2Curve.hpp,
    Pose2_Expressions.hpp.

    fitCurve (lines 71-79), setCurve (81-87), extend (89-96 and the policy in the
    header) and clear have the text of SlerpSE3Curve and SemiDiscreteSE3Curve:
    [slerp_fit], [slerp_set_curve], [slerp_extend], [slerp_clear].  evaluate (lines 155-180)
    and transformCurve (lines 233-240) have the text of SemiDiscreteSE3Curve: [semi_evaluate]
    and [pw_transform] with [blended].  gtsam's Pose2 is a group with Expmap and Logmap, all
    parameters here.  The functions that hand values to and from gtsam::Values call
    members the manager does not have and are left out. *)

From Coq Require Import List Bool Arith NArith ZArith.
From Verif Require Import Base TimeOrder KeyGen Manager Num Sampling Discrete.
Import ListNotations.

(** What getValueExpression returns: a leaf with a key, or slerp of two leaves
    (Pose2_Expressions.hpp lines 124-129). *)
Inductive value_expr (S : Type) := Leaf (k : N) | SlerpOf (k0 k1 : N) (alpha : S).
Arguments Leaf {S}.
Arguments SlerpOf {S}.

Section Curve.
Context {S : Type} `{Num S} `{TimeOps S} {V : Type} `{GroupOps V} {W : Type}.
Variables (vexp : W -> V) (vlog : V -> W) (vscale : W -> S -> W).
Local Notation curve := (@slerp_curve S V).

(** SlerpSE2Curve.cpp lines 121-147.  The evaluations only serve printing, but they
    can abort. *)
Definition slerp2_expression (c : curve) (t : S) : outcome (value_expr S) :=
  match get_coefficients_at (s_mgr c) t with
  | None => Abort
  | Some (a, b) =>
      let alpha := ((t - n_time a) / (n_time b - n_time a))%num in
      if neqb alpha (#0)%num then Ok (Leaf (n_key a))
      else if neqb alpha (#1)%num then Ok (Leaf (n_key b))
      else
        let* p0 := semi_evaluate vexp vlog vscale c (n_time a) in
        let* p1 := semi_evaluate vexp vlog vscale c (n_time b) in
        Ok (SlerpOf (n_key a) (n_key b) alpha)
  end.

(** The value of an expression for given values of the keys: slerp is
    compose(T0, exp(vectorScaling(log(compose(inverse(T0), T1)), alpha))).
    Pose2_Expressions.hpp lines 124-129. *)
Definition expression_value (env : N -> V) (e : value_expr S) : V :=
  match e with
  | Leaf k => env k
  | SlerpOf k0 k1 alpha => gmul (env k0) (vexp (vscale (vlog (gmul (ginv (env k0)) (env k1))) alpha))
  end.

(** The keys in an expression. Not in the source: used in statements. *)
Definition expression_keys (e : value_expr S) : list N :=
  match e with Leaf k => [k] | SlerpOf k0 k1 _ => [k0; k1] end.

(** SlerpSE2Curve.cpp lines 211-231, addPriorFactors: the factors pushed to the graph, as
    pairs of a key and the value it is tied to.  The result of getCoefficientsAt is
    not looked at: without coefficients the iterators are not set, which makes the
    dereference UB.  The same text is in DiscreteSE3Curve.cpp and
    SemiDiscreteSE3Curve.cpp. *)
Definition prior_factors (c : curve) (t : S) : outcome (list (N * V)) :=
  match get_coefficients_at (s_mgr c) t with
  | None => UB
  | Some (a, b) => Ok [(n_key a, n_coef a); (n_key b, n_coef b)]
  end.

(** SlerpSE2Curve.cpp lines 246-261, saveCurveTimesAndValues: the rows handed to
    writeTimeVectorCSV; [entries] makes (x, y, theta) from a pose. *)
Definition saved_rows (entries : V -> list S) (c : curve) : outcome (list (S * list S)) :=
  foldM (fun rows t =>
    let* v := semi_evaluate vexp vlog vscale c t in
    Ok (rows ++ [(t, entries v)])) (get_times (s_mgr c)) [].

End Curve.
