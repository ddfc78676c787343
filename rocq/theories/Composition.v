(** * Model of SE3CompositionCurve

    Source: /repo/curves/include/curves/SE3CompositionCurve-inl.hpp, with
    COMPOSITION_STRATEGY 1 (line 14).

    The template parameters are curves with the data and the sampling of
    SlerpSE3Curve (slerp, discrete and semi-discrete curves have the same), each
    given by its function evaluate: [pw_evaluate nearer] or [pw_evaluate (blended ..)]
    (Discrete.v) for discrete and semi-discrete curves, [slerp_evaluate] (SlerpSE3.v)
    for SlerpSE3Curve.  SE3 is an abstract group.  The save functions are in
    SlerpSE3.v, print is in Printing.v, the velocity functions in Velocity.v. *)

From Coq Require Import List Bool Arith NArith ZArith.
From Verif Require Import Base TimeOrder KeyGen Manager Num Sampling Discrete.
Import ListNotations.

(** Call [f] for each element in order. SE3CompositionCurve-inl.hpp lines 180-200. *)
Fixpoint mapM {A B} (f : A -> outcome B) (l : list A) : outcome (list B) :=
  match l with
  | [] => Ok []
  | a :: r => let* b := f a in let* bs := mapM f r in Ok (b :: bs)
  end.

Section Composition.
Context {S : Type} `{Num S} `{TimeOps S} {V : Type} `{GroupOps V}.
Local Notation curve := (@slerp_curve S V).

(** Members baseCurve_ and correctionCurve_ (SE3CompositionCurve.hpp lines 20-22). *)
Record comp := Comp { c_base : curve; c_corr : curve }.

(** SE3CompositionCurve-inl.hpp lines 21-24: both curves are default constructed. *)
Definition comp_new : comp := Comp slerp_new slerp_new.

(** The functions evaluate of the two curves. *)
Variables eb ec : curve -> S -> outcome V.

(** SE3CompositionCurve-inl.hpp lines 78-106: getMinTime, getMaxTime, isEmpty, size, baseSize and correctionSize *)
Definition comp_min_time (c : comp) : S := min_time (s_mgr (c_base c)).
(** SE3CompositionCurve-inl.hpp lines 83-86. *)
Definition comp_max_time (c : comp) : S := max_time (s_mgr (c_base c)).
(** SE3CompositionCurve-inl.hpp lines 88-91. *)
Definition comp_is_empty (c : comp) : bool := empty (s_mgr (c_base c)).
(** SE3CompositionCurve-inl.hpp lines 93-97. *)
Definition comp_size (c : comp) : nat := size (s_mgr (c_corr c)).
(** SE3CompositionCurve-inl.hpp lines 99-102. *)
Definition comp_base_size (c : comp) : nat := size (s_mgr (c_base c)).
(** SE3CompositionCurve-inl.hpp lines 104-107. *)
Definition comp_correction_size (c : comp) : nat := size (s_mgr (c_corr c)).

(** SE3CompositionCurve-inl.hpp lines 114-118 *)
Definition comp_set_ratio (c : comp) (n : Z) : comp :=
  Comp (slerp_set_ratio (c_base c) 1) (slerp_set_ratio (c_corr c) n).

(** SE3CompositionCurve-inl.hpp lines 225-230; C++ leaves the order in which the two factors are evaluated
    open, here the correction comes first. *)
Definition comp_evaluate (c : comp) (t : S) : outcome V :=
  let* k := ec (c_corr c) t in
  let* b := eb (c_base c) t in
  Ok (gmul k b).

(** SE3CompositionCurve-inl.hpp lines 143-167: make the correction curve cover [new_min, new_max]. The
    vectors correctionTimes and correctionValues are not emptied between the
    three calls of extend. *)
Definition comp_cover (g : N) (k : curve) (new_min new_max : S) : outcome (N * curve) :=
  let* (g1, k1, ts1, vs1) :=
    if empty (s_mgr k) then
      let* (g1, k1, _) := slerp_extend g k [new_min] [gone] [] in
      Ok (g1, k1, [new_min], [gone])
    else Ok (g, k, [], []) in
  let* (g2, k2, ts2, vs2) :=
    if nltb (max_time (s_mgr k1)) new_max then
      let* v := ec k1 (max_time (s_mgr k1)) in
      let* (g2, k2, _) := slerp_extend g1 k1 (ts1 ++ [new_max]) (vs1 ++ [v]) [] in
      Ok (g2, k2, ts1 ++ [new_max], vs1 ++ [v])
    else Ok (g1, k1, ts1, vs1) in
  if nltb new_min (min_time (s_mgr k2)) then
    let* v := ec k2 (min_time (s_mgr k2)) in
    let* (g3, k3, _) := slerp_extend g2 k2 (ts2 ++ [new_min]) (vs2 ++ [v]) [] in
    Ok (g3, k3)
  else Ok (g2, k2).

(** SE3CompositionCurve-inl.hpp lines 121-178 *)
Definition comp_extend (g : N) (c : comp) (ts : list S) (vs : list V) (out : list N)
  : outcome (N * comp * list N) :=
  match ts, vs with
  | [t], [v] =>
      let b := s_mgr (c_base c) in
      let max0 := if empty b then nofZ 0 else max_time b in
      let min0 := if empty b then nofZ 0 else min_time b in
      let new_max := if nltb max0 t then t else max0 in
      let new_min := if nltb t min0 then t else min0 in
      let* (g1, k) := comp_cover g (c_corr c) new_min new_max in
      let* kt := ec k t in
      let* (g2, b', out') := slerp_extend g1 (c_base c) [t] [gmul (ginv kt) v] out in
      Ok (g2, Comp b' k, out')
  | _, _ => Abort                                  (* CHECK_EQ(..., 1) *)
  end.

(** SE3CompositionCurve-inl.hpp lines 202-207 *)
Definition comp_fit := comp_extend.

(** A sequence of calls [extend({t}, {v}, &keys)] with the same key vector.
    Not in the source: a sequence of calls of SE3CompositionCurve-inl.hpp lines 121-178. *)
Definition comp_feed (g : N) (c : comp) (ms : list (S * V)) (out : list N)
  : outcome (N * comp * list N) :=
  foldM (fun s tv => let '(g, c, out) := s in comp_extend g c [fst tv] [snd tv] out) ms (g, c, out).

(** SE3CompositionCurve-inl.hpp lines 180-200 *)
Definition comp_fold (g : N) (c : comp) : outcome (N * comp) :=
  let ts := get_times (s_mgr (c_base c)) in
  let* vs := mapM (comp_evaluate c) ts in
  let* (g1, b, _) := slerp_extend g (slerp_clear (c_base c)) ts vs [] in
  let cts := get_times (s_mgr (c_corr c)) in
  let* (g2, k, _) := slerp_extend g1 (slerp_clear (c_corr c)) cts (map (fun _ => gone) cts) [] in
  Ok (g2, Comp b k).

(** The two CHECK_EQ of lines 220-221 and of the functions of lines 387-425. *)
Definition same_range (c : comp) : bool :=
  neqb (min_time (s_mgr (c_corr c))) (min_time (s_mgr (c_base c))) &&
  neqb (max_time (s_mgr (c_corr c))) (max_time (s_mgr (c_base c))).

(** SE3CompositionCurve-inl.hpp lines 220-221: CHECK_EQ at the end of the functions. *)
Definition checked (g : N) (c : comp) : outcome (N * comp) :=
  if same_range c then Ok (g, c) else Abort.

(** SE3CompositionCurve-inl.hpp lines 209-222 *)
Definition comp_set_correction_times (g : N) (c : comp) (ts : list S) : outcome (N * comp) :=
  let* vs := mapM (ec (c_corr c)) ts in
  let* (g1, k, _) := slerp_extend g (slerp_clear (c_corr c)) ts vs [] in
  checked g1 (Comp (c_base c) k).

(** SE3CompositionCurve-inl.hpp lines 361-365 *)
Definition comp_clear (c : comp) : comp := Comp (slerp_clear (c_base c)) (slerp_clear (c_corr c)).

(** SE3CompositionCurve-inl.hpp lines 367-371 *)
Definition comp_remove_correction (c : comp) (t : S) : outcome comp :=
  if has_coefficient_at_time (s_mgr (c_corr c)) t then
    let* m := remove_coefficient_at_time (s_mgr (c_corr c)) t in
    Ok (Comp (c_base c) (Slerp m (s_pol (c_corr c))))
  else Abort.

(** SE3CompositionCurve-inl.hpp lines 372-377 *)
Definition comp_set_correction (g : N) (c : comp) (t : S) (v : V) : outcome (N * comp) :=
  if has_coefficient_at_time (s_mgr (c_corr c)) t then
    let* (g', m, _) := insert_coefficient g (s_mgr (c_corr c)) t v in
    Ok (g', Comp (c_base c) (Slerp m (s_pol (c_corr c))))
  else Abort.

(** SE3CompositionCurve-inl.hpp lines 379-384 *)
Definition comp_transform (g : N) (c : comp) (T : V) : outcome (N * comp) :=
  let* (g', b) := curve_transform eb g (c_base c) T in Ok (g', Comp b (c_corr c)).

(** SE3CompositionCurve-inl.hpp lines 386-398 *)
Definition comp_reset_correction (g : N) (c : comp) (ts : list S) : outcome (N * comp) :=
  let* (g1, k, _) := slerp_fit g (c_corr c) ts (map (fun _ => gone) ts) [] in
  checked g1 (Comp (c_base c) k).

(** SE3CompositionCurve-inl.hpp lines 400-405 *)
Definition comp_set_base (g : N) (c : comp) (ts : list S) (vs : list V) : outcome (N * comp) :=
  let* (g1, b, _) := slerp_fit g (c_base c) ts vs [] in
  checked g1 (Comp b (c_corr c)).

(** SE3CompositionCurve-inl.hpp lines 407-412 *)
Definition comp_set_base_part (g : N) (c : comp) (ts : list S) (vs : list V) : outcome (N * comp) :=
  let* (g1, b) := slerp_set_curve g (c_base c) ts vs in
  checked g1 (Comp b (c_corr c)).

(** SE3CompositionCurve-inl.hpp lines 414-419 *)
Definition comp_modify_base (g : N) (c : comp) (ts : list S) (vs : list V) : outcome (N * comp) :=
  let* m := modify_in_batch (s_mgr (c_base c)) ts vs in
  checked g (Comp (Slerp m (s_pol (c_base c))) (c_corr c)).

End Composition.
Arguments comp S V : clear implicits.
