(** * Model of DiscreteSE3Curve and SemiDiscreteSE3Curve

    Sources: /repo/curves/src/DiscreteSE3Curve.cpp, SemiDiscreteSE3Curve.cpp and
    the headers of the same names.

    Both classes hold a coefficient manager with SE3 coefficients and a sampling
    policy; the text of their fitCurve, extend, clear and of the policy is the
    text of SlerpSE3Curve, so the model reuses [slerp_curve] (Sampling.v). The
    two classes differ in what they do between two coefficients.

    SE3 is an abstract group: only composition, inverse and identity of poses
    are used.  [log], [exp] and the scaling of a twist (kindr and gtsam
    functions) are parameters of the semi-discrete curve. *)

From Coq Require Import List Bool Arith NArith ZArith.
From Verif Require Import Base TimeOrder KeyGen Manager Num Sampling.
Import ListNotations.

(** SE3 of kindr: operator*, inverted() and SE3(Position(0,0,0), Rotation(1,0,0,0)).
    SemiDiscreteSE3Curve.cpp lines 165-169, SE3CompositionCurve-inl.hpp lines 121-178. *)
Class GroupOps (V : Type) := { gone : V; gmul : V -> V -> V; ginv : V -> V }.

Section Curve.
Context {S : Type} `{Num S} `{TimeOps S} {V : Type}.
Local Notation curve := (@slerp_curve S V).

(** [mid ta va tb vb t] is the value at [t] between the coefficients [va] at
    [ta] and [vb] at [tb].
    DiscreteSE3Curve.cpp lines 165-169, SemiDiscreteSE3Curve.cpp lines 160-169. *)
Definition middle := S -> V -> S -> V -> S -> V.

(** DiscreteSE3Curve.cpp lines 148-172, SemiDiscreteSE3Curve.cpp lines 146-173.
    coefficientBegin() of an empty map is end(), whose dereference is UB; so is
    that of --coefficientEnd(). *)
Definition pw_evaluate (mid : middle) (c : curve) (t : S) : outcome V :=
  let m := s_mgr c in
  if neqb (max_time m) t && neqb (min_time m) t then
    match nodes m with [] => UB | n :: _ => Ok (n_coef n) end
  else if neqb t (max_time m) then
    match last_node (nodes m) with None => UB | Some n => Ok (n_coef n) end
  else
    match get_coefficients_at m t with
    | None => Abort
    | Some (a, b) => Ok (mid (n_time a) (n_coef a) (n_time b) (n_coef b) t)
    end.

(** DiscreteSE3Curve.cpp lines 165-169. *)
Definition nearer : middle :=
  fun ta va tb vb t => if nleb (t - ta)%num (tb - t)%num then va else vb.

(** DiscreteSE3Curve.cpp lines 148-172. *)
Definition disc_evaluate : curve -> S -> outcome V := pw_evaluate nearer.

(** SemiDiscreteSE3Curve.cpp lines 160-169:
    T_W_A * exp(alpha * log(inv(T_W_A) * T_W_B)). *)
Definition blended `{GroupOps V} {W : Type} (vexp : W -> V) (vlog : V -> W) (vscale : W -> S -> W)
  : middle :=
  fun ta va tb vb t =>
    let alpha := ((t - ta) / (tb - ta))%num in
    gmul va (vexp (vscale (vlog (gmul (ginv va) vb)) alpha)).

(** SemiDiscreteSE3Curve.cpp lines 146-173. *)
Definition semi_evaluate `{GroupOps V} {W : Type} (vexp : W -> V) (vlog : V -> W)
  (vscale : W -> S -> W) : curve -> S -> outcome V :=
  pw_evaluate (blended vexp vlog vscale).

(** DiscreteSE3Curve.cpp lines 77-83, SemiDiscreteSE3Curve.cpp lines 77-83:
    setCurve, which does not clear. *)
Definition slerp_set_curve (g : N) (c : curve) (ts : list S) (vs : list V) : outcome (N * curve) :=
  if negb (Nat.eqb (length ts) (length vs)) then Abort
  else match ts with
  | [] => Ok (g, c)
  | _ =>
      let* (g', m', _) := insert_coefficients g (s_mgr c) ts vs [] in
      Ok (g', Slerp m' (s_pol c))
  end.

(** DiscreteSE3Curve.cpp lines 287-294: transformCurve; the values are read
    from the curve while it is being changed. The text of
    SemiDiscreteSE3Curve.cpp and of SlerpSE3Curve.cpp (lines 261-268) is the
    same, each with its own evaluate [ev]. *)
Definition curve_transform `{GroupOps V} (ev : curve -> S -> outcome V) (g : N) (c : curve) (T : V)
  : outcome (N * curve) :=
  foldM (fun s t =>
    let '(g, c) := s in
    let* v := ev c t in
    let* (g', m', _) := insert_coefficient g (s_mgr c) t (gmul T v) in
    Ok (g', Slerp m' (s_pol c))) (get_times (s_mgr c)) (g, c).
(** transformCurve: DiscreteSE3Curve.cpp lines 289-296 and the same function of SemiDiscreteSE3Curve.cpp, with the evaluate of the class. *)
Definition pw_transform `{GroupOps V} (mid : middle) := curve_transform (pw_evaluate mid).

(** DiscreteSE3Curve.cpp lines 127-146: getValueExpression, as the key of the
    leaf expression it returns.  The same text is in SemiDiscreteSE3Curve.cpp. *)
Definition value_expression (c : curve) (t : S) : outcome N :=
  match get_coefficients_at (s_mgr c) t with
  | None => Abort
  | Some (a, b) => Ok (if nleb (t - n_time a)%num (n_time b - t)%num then n_key a else n_key b)
  end.

End Curve.
