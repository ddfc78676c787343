(** * Model of the sampling policies behind extend

    Sources: /repo/curves/include/curves/SamplingPolicy.hpp,
    SlerpSE3Curve.hpp lines 204-237 (the same text is in DiscreteSE3Curve.hpp,
    SemiDiscreteSE3Curve.hpp, SE2 curves), SlerpSE3Curve.cpp lines 55-93,
    CubicHermiteSE3Curve.hpp lines 289-391.

    The policies only move coefficients around in a coefficient manager, so the
    poses, the derivatives and the slope function are left abstract here. *)

From Coq Require Import List Bool Arith NArith ZArith.
From Verif Require Import Base TimeOrder KeyGen Manager.
Import ListNotations.

(** SamplingPolicy.hpp lines 17-20. [p_count] is [measurementsSinceLastExtend_],
    [p_min] is [minimumMeasurements_] (both [int]). *)
Record policy (T : Type) := Policy {
  p_count : Z; p_min : Z; p_period : T; p_last : T
}.
Arguments Policy {T}.
Arguments p_count {T}.
Arguments p_min {T}.
Arguments p_period {T}.
Arguments p_last {T}.

(** Largest [int]. SamplingPolicy.hpp line 17: the type of measurementsSinceLastExtend_. *)
Definition int_max : Z := 2 ^ 31 - 1.

(** [++measurementsSinceLastExtend_]; signed overflow is UB.
    SlerpSE3Curve.hpp line 223, DiscreteSE3Curve.hpp line 230, SemiDiscreteSE3Curve.hpp line 231, CubicHermiteSE3Curve.hpp line 365. *)
Definition count_up {T} (p : policy T) : outcome (policy T) :=
  if Z.eqb (p_count p) int_max then UB
  else Ok (Policy (p_count p + 1)%Z (p_min p) (p_period p) (p_last p)).

(** SamplingPolicy.hpp lines 95-97, and [measurementsSinceLastExtend_ = 0] in SlerpSE3Curve.hpp line 232. *)
Definition set_count {T} (p : policy T) (c : Z) : policy T :=
  Policy c (p_min p) (p_period p) (p_last p).

Section Sampling.
Context {T : Type} `{TimeOps T}.

(** SamplingPolicy.hpp lines 24-28, default constructor. *)
Definition policy_default : policy T := Policy 0 1 tzero tzero.

(** ** SlerpSE3Curve (values only) *)

Section Slerp.
Context {V : Type}.

(** SlerpSE3Curve.hpp: members [manager_] and [slerpPolicy_]. *)
Record slerp_curve := Slerp { s_mgr : mgr T V; s_pol : policy T }.

(** SlerpSE3Curve.cpp, default constructor. *)
Definition slerp_new : slerp_curve := Slerp mgr_empty policy_default.

(** SlerpSE3Curve.cpp: setSamplingRatio. *)
Definition slerp_set_ratio (c : slerp_curve) (n : Z) : slerp_curve :=
  Slerp (s_mgr c) (Policy (p_count (s_pol c)) n (p_period (s_pol c)) (p_last (s_pol c))).

(** SlerpSE3Curve.cpp: clear; the policy is not touched. *)
Definition slerp_clear (c : slerp_curve) : slerp_curve := Slerp (clear (s_mgr c)) (s_pol c).

(** SlerpSE3Curve.cpp lines 66-74 *)
Definition slerp_fit (g : N) (c : slerp_curve) (ts : list T) (vs : list V) (out : list N)
  : outcome (N * slerp_curve * list N) :=
  if negb (Nat.eqb (length ts) (length vs)) then Abort
  else match ts with
  | [] => Ok (g, c, out)
  | _ =>
      let c1 := slerp_clear c in
      let* (g', m', out') := insert_coefficients g (s_mgr c1) ts vs out in
      Ok (g', Slerp m' (s_pol c1), out')
  end.

(** SlerpSE3Curve.hpp lines 220-233: one more measurement on a curve with at
    least two coefficients. *)
Definition slerp_extend_one (g : N) (c : slerp_curve) (t : T) (v : V) (out : list N)
  : outcome (N * slerp_curve * list N) :=
  if Z.eqb (p_min (s_pol c)) 1 then
    let* (g', m', out') := add_coefficient_at_end g (s_mgr c) t v out in
    Ok (g', Slerp m' (s_pol c), out')
  else
    let* p := count_up (s_pol c) in
    let* (g', m', out') :=
      if Z.eqb (p_count p) 1 then add_coefficient_at_end g (s_mgr c) t v out
      else match last_node (nodes (s_mgr c)) with
           | None => UB
           | Some n =>
               let* m' := modify_coefficient (s_mgr c) (At (n_id n)) t v in
               Ok (g, m', out)
           end in
    Ok (g', Slerp m' (if Z.eqb (p_count p) (p_min p) then set_count p 0 else p), out').

(** SlerpSE3Curve.cpp lines 84-93 and SlerpSE3Curve.hpp lines 206-237 *)
Definition slerp_extend (g : N) (c : slerp_curve) (ts : list T) (vs : list V) (out : list N)
  : outcome (N * slerp_curve * list N) :=
  if negb (Nat.eqb (length ts) (length vs)) then Abort
  else match ts, vs with
  | [t], [v] =>
      if empty (s_mgr c) || Nat.eqb (size (s_mgr c)) 1 then
        let* (g', m', out') := insert_coefficients g (s_mgr c) ts vs out in
        Ok (g', Slerp m' (s_pol c), out')
      else slerp_extend_one g c t v out
  | _, _ =>
      let* (g', m', out') := insert_coefficients g (s_mgr c) ts vs out in
      Ok (g', Slerp m' (s_pol c), out')
  end.

(** A sequence of calls [extend({t}, {v}, &keys)] with the same key vector.
    Not in the source: a sequence of calls of SlerpSE3Curve.cpp lines 76-93. *)
Definition slerp_feed (g : N) (c : slerp_curve) (ms : list (T * V)) (out : list N)
  : outcome (N * slerp_curve * list N) :=
  foldM (fun s tv => let '(g, c, out) := s in slerp_extend g c [fst tv] [snd tv] out) ms (g, c, out).

End Slerp.

(** ** CubicHermiteSE3Curve (values and derivatives) *)

Section Hermite.
Context {V D : Type}.
(** [DerivativeType::setZero], [calculateSlope] and [operator+] of times. *)
Variable dzero : D.
Variable slope : T -> T -> V -> V -> D.
Variable tadd : T -> T -> T.

(** CubicHermiteSE3Curve.hpp: members [manager_] and [hermitePolicy_]; a
    coefficient is a pose with its derivative. *)
Record hermite_curve := Hermite { h_mgr : mgr T (V * D); h_pol : policy T }.

(** CubicHermiteSE3Curve.cpp, constructor: [hermitePolicy_.setMinimumMeasurements(4)]. *)
Definition hermite_new : hermite_curve := Hermite mgr_empty (Policy 0 4 tzero tzero).

(** CubicHermiteSE3Curve.cpp lines 559-561, SamplingPolicy.hpp lines 83-85. *)
Definition hermite_set_ratio (c : hermite_curve) (n : Z) : hermite_curve :=
  Hermite (h_mgr c) (Policy (p_count (h_pol c)) n (p_period (h_pol c)) (p_last (h_pol c))).

(** CubicHermiteSE3Curve.cpp lines 554-556, SamplingPolicy.hpp lines 87-89. *)
Definition hermite_set_period (c : hermite_curve) (t : T) : hermite_curve :=
  Hermite (h_mgr c) (Policy (p_count (h_pol c)) (p_min (h_pol c)) t (p_last (h_pol c))).

(** CubicHermiteSE3Curve.hpp lines 291-336.  The iterators left unset when
    getCoefficientsAt fails make the following dereference UB. *)
Definition default_extend (g : N) (c : hermite_curve) (t : T) (v : V)
  : outcome (N * hermite_curve) :=
  let m := h_mgr c in
  let* (m1, d) :=
    match nodes m with
    | [] => Ok (m, dzero)
    | [n] =>
        let d := slope (n_time n) t (fst (n_coef n)) v in
        let* m1 := update_coefficient_by_key m (n_key n) (fst (n_coef n), d) in
        Ok (m1, d)
    | _ =>
        match last_node (nodes m) with
        | None => UB
        | Some l =>
            match get_coefficients_at m (n_time l) with
            | None => UB
            | Some (r0, r1) =>
                let d0 := slope (n_time r0) t (fst (n_coef r0)) v in
                let* m1 := update_coefficient_by_key m (n_key r1) (fst (n_coef r1), d0) in
                Ok (m1, slope (n_time r1) t (fst (n_coef r1)) v)
            end
        end
    end in
  let* (g', m2, _) := insert_coefficient g m1 t (v, d) in
  Ok (g', Hermite m2 (Policy 0 (p_min (h_pol c)) (p_period (h_pol c)) t)).

(** CubicHermiteSE3Curve.hpp lines 338-366 *)
Definition interpolation_extend (g : N) (c : hermite_curve) (t : T) (v : V)
  : outcome (N * hermite_curve) :=
  let m := h_mgr c in
  match last_node (nodes m) with
  | None => UB                                   (* --end() of an empty map *)
  | Some l =>
      let* (m1, d) :=
        if Z.eqb (p_count (h_pol c)) 0 then Ok (m, snd (n_coef l))
        else match get_coefficients_at m (n_time l) with
             | None => UB
             | Some (r0, ri) =>
                 let* m1 := remove_coefficient_at_time m (n_time ri) in
                 Ok (m1, slope (n_time r0) t (fst (n_coef r0)) v)
             end in
      let* p := count_up (h_pol c) in
      let* (g', m2, _) := insert_coefficient g m1 t (v, d) in
      Ok (g', Hermite m2 p)
  end.

(** CubicHermiteSE3Curve.hpp lines 374-389: the body of the loop. *)
Definition hermite_extend_one (g : N) (c : hermite_curve) (t : T) (v : V)
  : outcome (N * hermite_curve) :=
  let m := h_mgr c in
  let p := h_pol c in
  if negb (tlt (max_time m) t || empty m) then Abort
  else if empty m then default_extend g c t v
  else if Z.leb (p_min p) (p_count p) && tlt (tadd (p_last p) (p_period p)) t then
    match last_node (nodes m) with
    | None => UB
    | Some l =>
        let* m1 := remove_coefficient_at_time m (n_time l) in
        default_extend g (Hermite m1 p) t v
    end
  else interpolation_extend g c t v.

(** CubicHermiteSE3Curve.hpp lines 368-391.  [values[i]] beyond the end is UB;
    additional values are ignored. *)
Fixpoint hermite_extend (g : N) (c : hermite_curve) (ts : list T) (vs : list V)
  : outcome (N * hermite_curve) :=
  match ts with
  | [] => Ok (g, c)
  | t :: ts' =>
      match vs with
      | [] =>
          if negb (tlt (max_time (h_mgr c)) t || empty (h_mgr c)) then Abort else UB
      | v :: vs' =>
          let* (g', c') := hermite_extend_one g c t v in
          hermite_extend g' c' ts' vs'
      end
  end.

(** CubicHermiteSE3Curve.cpp lines 115-146: the coefficients of a fit.  [prev]
    is the data point before the first of [tvs], if any. *)
Fixpoint fit_coefficients (d0 d1 : D) (prev : option (T * V)) (tvs : list (T * V)) : list (V * D) :=
  match tvs with
  | [] => []
  | (t, v) :: r =>
      (v, match prev with
          | None => d0
          | Some (tp, vp) =>
              match r with
              | [] => d1
              | (tn, vn) :: _ => slope tp tn vp vn
              end
          end) :: fit_coefficients d0 d1 (Some (t, v)) r
  end.

(** CubicHermiteSE3Curve.cpp lines 108-147; [clear] does not touch the policy. *)
Definition hermite_fit_with_derivatives (g : N) (c : hermite_curve) (ts : list T) (vs : list V)
    (d0 d1 : D) (out : list N) : outcome (N * hermite_curve * list N) :=
  if negb (Nat.eqb (length ts) (length vs)) then Abort
  else
    let m := clear (h_mgr c) in
    let* (g', m', out') :=
      insert_coefficients g m ts (fit_coefficients d0 d1 None (combine ts vs)) out in
    Ok (g', Hermite m' (h_pol c), out').

End Hermite.
End Sampling.

Arguments slerp_curve T V : clear implicits.
Arguments hermite_curve T V D : clear implicits.
