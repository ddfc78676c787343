(** * The spline container

    Model of curves/include/curves/PolynomialSplineContainer.hpp and .tpp.  The
    template parameter [splineOrder_] is the number [o].  [std::cout] messages are
    left out. *)

From Coq Require Import List ZArith Bool.
From Verif Require Import Base Num Spline.
Import ListNotations.

Section Container.
Context {S : Type} `{Num S}.
Local Open Scope num_scope.

(** Members, PolynomialSplineContainer.hpp 179-192.  The matrices (194-198) are
    overwritten before every use, so they are local to [set_data6] and [set_data4]
    here. [activeSplineIdx_] is an [int]; its overflow (more than 2^31 splines) is
    not modelled. *)
Record container := mkContainer {
  c_splines : list (spline S);
  c_offset : S;
  c_time : S;
  c_duration : S;
  c_active : Z
}.

(** [splines_.size()] *)
Definition c_size (c : container) : Z := Z.of_nat (length (c_splines c)).

(** An [int] compared with a [size_t] is first converted to [size_t].
    PolynomialSplineContainer.tpp lines 39, 48 and 107. *)
Definition to_size_t (i : Z) : Z := (i mod 2 ^ 64)%Z.

(** [splines_[i]] *)
Definition spline_at (c : container) (i : Z) : outcome (spline S) :=
  if (i <? 0)%Z then UB
  else match nth_error (c_splines c) (Z.to_nat i) with Some s => Ok s | None => UB end.

(** [splines_.back()] *)
Definition spline_back (c : container) : outcome (spline S) :=
  match rev (c_splines c) with s :: _ => Ok s | [] => UB end.

(** The constructor, PolynomialSplineContainer.tpp 12-23 *)
Definition c_new : container := mkContainer [] #0 #0 #0 0.

(** getSpline, PolynomialSplineContainer.tpp 25-29: [at] throws outside the range *)
Definition get_spline (c : container) (i : Z) : outcome (spline S) :=
  match nth_error (c_splines c) (Z.to_nat (to_size_t i)) with
  | Some s => Ok s
  | None => Throw
  end.

(** addSpline, PolynomialSplineContainer.hpp 49-54 *)
Definition add_spline (c : container) (s : spline S) : container :=
  mkContainer (c_splines c ++ [s]) (c_offset c) (c_time c) (c_duration c + s_duration s) (c_active c).

(** advance, PolynomialSplineContainer.tpp 36-55 *)
Definition advance (c : container) (dt : S) : outcome (bool * container) :=
  if (c_size c =? 0)%Z || nleb (c_duration c) (c_time c) || (to_size_t (c_active c) =? c_size c)%Z
  then Ok (false, c)
  else
    let time := c_time c + dt in
    let* s := spline_at c (c_active c) in
    if nleb (s_duration s) (time - c_offset c) then
      let offset := if (to_size_t (c_active c) <? c_size c - 1)%Z
                    then c_offset c + s_duration s else c_offset c in
      Ok (true, mkContainer (c_splines c) offset time (c_duration c) (c_active c + 1))
    else Ok (true, mkContainer (c_splines c) (c_offset c) time (c_duration c) (c_active c)).

(** The loop of getActiveSplineIndexAtTime, PolynomialSplineContainer.tpp 141-150, from spline [i] on *)
Fixpoint active_loop (l : list (spline S)) (i : Z) (offset t : S) : Z * S :=
  match l with
  | [] => ((i - 1)%Z, offset)
  | s :: r =>
      if nltb (t - offset) (s_duration s) then (i, offset)
      else active_loop r (i + 1)%Z (match r with [] => offset | _ => offset + s_duration s end) t
  end.

(** getActiveSplineIndexAtTime, PolynomialSplineContainer.tpp 136-151.  The reference argument timeOffset is
    an extra argument and result. *)
Definition active_index_at (c : container) (t offset : S) : Z * S :=
  match c_splines c with
  | [] => ((-1)%Z, offset)
  | _ => active_loop (c_splines c) 0 #0 t
  end.

(** setContainerTime, PolynomialSplineContainer.tpp 57-62 *)
Definition set_container_time (c : container) (t : S) : container :=
  let (i, offset) := active_index_at c t (c_offset c) in
  mkContainer (c_splines c) offset t (c_duration c) i.

(** resetTime, PolynomialSplineContainer.tpp 74-81 *)
Definition reset_time (c : container) : container :=
  mkContainer (c_splines c) #0 #0 (c_duration c) 0.

(** reset, PolynomialSplineContainer.tpp 64-72 *)
Definition reset (c : container) : container :=
  reset_time (mkContainer [] (c_offset c) (c_time c) #0 0).

(** getContainerDuration, getContainerTime, isEmpty, getActiveSplineIndex: PolynomialSplineContainer.tpp 83-99, 153-156 *)
Definition get_container_duration (c : container) : S := c_duration c.
(** PolynomialSplineContainer.tpp 89-93. *)
Definition get_container_time (c : container) : S := c_time c.
(** PolynomialSplineContainer.tpp 95-99. *)
Definition is_empty (c : container) : bool := (c_size c =? 0)%Z.
(** PolynomialSplineContainer.tpp 153-156. *)
Definition get_active_spline_index (c : container) : Z := c_active c.

(** The common shape of getPosition / getVelocity / getAcceleration, PolynomialSplineContainer.tpp 101-134 *)
Definition get_now (f : spline S -> S -> S) (c : container) : outcome S :=
  if (c_size c =? 0)%Z then Ok #0
  else if (to_size_t (c_active c) =? c_size c)%Z then
    let* s := spline_back c in Ok (f s (c_time c - c_offset c))
  else let* s := spline_at c (c_active c) in Ok (f s (c_time c - c_offset c)).

(** getPosition PolynomialSplineContainer.tpp 101-111, getVelocity 113-122, getAcceleration 124-134 *)
Definition get_position (o : nat) (c : container) : outcome S := get_now (position_at o) c.
(** PolynomialSplineContainer.tpp 113-122. *)
Definition get_velocity (o : nat) (c : container) : outcome S := get_now (velocity_at o) c.
(** PolynomialSplineContainer.tpp 124-134. *)
Definition get_acceleration (o : nat) (c : container) : outcome S := get_now (acceleration_at o) c.

(** The common shape of the AtTime getters, PolynomialSplineContainer.tpp 158-210.  The index is cast to
    [unsigned int] before the comparison. *)
Definition get_at (f : spline S -> S -> S) (c : container) (t : S) : outcome S :=
  let (i, offset) := active_index_at c t #0 in
  if (i <? 0)%Z then Ok #0
  else if (i mod 2 ^ 32 =? c_size c)%Z then
    let* s := spline_back c in Ok (f s (s_duration s))
  else let* s := spline_at c i in Ok (f s (t - offset)).

(** getPositionAtTime PolynomialSplineContainer.tpp 158-173, getVelocityAtTime 175-191, getAccelerationAtTime 194-210 *)
Definition get_position_at_time (o : nat) (c : container) (t : S) : outcome S := get_at (position_at o) c t.
(** PolynomialSplineContainer.tpp 175-191. *)
Definition get_velocity_at_time (o : nat) (c : container) (t : S) : outcome S := get_at (velocity_at o) c t.
(** PolynomialSplineContainer.tpp 194-210. *)
Definition get_acceleration_at_time (o : nat) (c : container) (t : S) : outcome S := get_at (acceleration_at o) c t.

(** The common shape of the End getters, PolynomialSplineContainer.tpp 212-243 *)
Definition get_end (f : spline S -> S -> S) (c : container) : outcome S :=
  if (c_size c =? 0)%Z then Ok #0
  else let* s := spline_back c in Ok (f s (s_duration s)).

(** getEndPosition PolynomialSplineContainer.tpp 212-221, getEndVelocity 223-232, getEndAcceleration 234-243 *)
Definition get_end_position (o : nat) (c : container) : outcome S := get_end (position_at o) c.
(** PolynomialSplineContainer.tpp 223-232. *)
Definition get_end_velocity (o : nat) (c : container) : outcome S := get_end (velocity_at o) c.
(** PolynomialSplineContainer.tpp 234-243. *)
Definition get_end_acceleration (o : nat) (c : container) : outcome S := get_end (acceleration_at o) c.

(** checkContainer, PolynomialSplineContainer.tpp 568-607.  [isnan x] is [x != x]. *)
Definition check_container (c : container) : bool :=
  if nltb (c_time c) #0 then false
  else if nltb (c_duration c) #0 then false
  else if nltb (c_duration c) (c_time c) then false
  else if (c_active c <? 0)%Z then false
  else forallb (fun s => negb (nltb (s_duration s) #0) && forallb (fun x => neqb x x) (s_coefs s))
         (c_splines c).

(** ** The linear system of setData *)

(** equalityConstraintJacobian_, equalityConstraintTargetValues_ and constraintIdx.
    PolynomialSplineContainer.hpp 194-198. *)
Record sys := mkSys { y_jac : list (list S); y_tgt : list S; y_idx : nat }.

(** [x[i] = v]. Used for PolynomialSplineContainer.tpp 443 and the like. *)
Fixpoint list_set {A} (l : list A) (i : nat) (v : A) : list A :=
  match l, i with
  | [], _ => []
  | _ :: r, O => v :: r
  | a :: r, Datatypes.S i' => a :: list_set r i' v
  end.

(** Overwrite a part of a row. Used for PolynomialSplineContainer.tpp 475 and the like. *)
Definition put_block (row : list S) (col : nat) (v : list S) : list S :=
  firstn col row ++ v ++ skipn (col + length v) row.

(** [equalityConstraintJacobian_.block(constraintIdx, col, 1, coefficientCount) = v];
    a block that does not fit is an Eigen assertion failure, and undefined behaviour
    with assertions switched off: [UB].
    PolynomialSplineContainer.tpp 442, 450, 458, 475, 483, 491, 522-538. *)
Definition set_block (y : sys) (col : nat) (v : list S) : outcome sys :=
  match nth_error (y_jac y) (y_idx y) with
  | Some row =>
      if (col + length v <=? length row)%nat
      then Ok (mkSys (list_set (y_jac y) (y_idx y) (put_block row col v)) (y_tgt y) (y_idx y))
      else UB
  | None => UB
  end.

(** [equalityConstraintTargetValues_(constraintIdx) = x].
    PolynomialSplineContainer.tpp 443, 451, 459, 476, 484, 492, 523-539. *)
Definition set_target (y : sys) (x : S) : outcome sys :=
  if (y_idx y <? length (y_tgt y))%nat
  then Ok (mkSys (y_jac y) (list_set (y_tgt y) (y_idx y) x) (y_idx y))
  else UB.

(** [constraintIdx++]. PolynomialSplineContainer.tpp 444, 452, 460, 477, 485, 493, 524-540. *)
Definition next_row (y : sys) : sys := mkSys (y_jac y) (y_tgt y) (Datatypes.S (y_idx y)).

(** One constraint on one spline.
    PolynomialSplineContainer.tpp 441-444, 448-452, 456-460, 474-477, 481-485, 489-493. *)
Definition add_condition (y : sys) (col : nat) (v : list S) (x : S) : outcome sys :=
  let* y1 := set_block y col v in
  let* y2 := set_target y1 x in
  Ok (next_row y2).

(** getSplineColumnIndex, PolynomialSplineContainer.hpp 150-156 *)
Definition column_index (o : nat) (id : nat) : nat := (id * (o + 1))%nat.

(** addInitialConditions, PolynomialSplineContainer.tpp 436-462 *)
Definition add_initial_conditions (o : nat) (conds : list S) (y : sys) : outcome sys :=
  match conds with
  | [] => Ok y
  | p :: conds1 =>
      let* y := add_condition y (column_index o 0) (tau_zero o) p in
      match conds1 with
      | [] => Ok y
      | v :: conds2 =>
          let* y := add_condition y (column_index o 0) (dtau_zero o) v in
          match conds2 with
          | [] => Ok y
          | a :: _ => add_condition y (column_index o 0) (ddtau_zero o) a
          end
      end
  end.

(** addFinalConditions, PolynomialSplineContainer.tpp 464-495 *)
Definition add_final_conditions (o : nat) (conds : list S) (duration : S) (last_id : nat) (y : sys) : outcome sys :=
  match conds with
  | [] => Ok y
  | p :: conds1 =>
      let* y := add_condition y (column_index o last_id) (tau o duration) p in
      match conds1 with
      | [] => Ok y
      | v :: conds2 =>
          let* y := add_condition y (column_index o last_id) (dtau o duration) v in
          match conds2 with
          | [] => Ok y
          | a :: _ => add_condition y (column_index o last_id) (ddtau o duration) a
          end
      end
  end.

(** A vector access [v[i]]. PolynomialSplineContainer.tpp 281, 358, 421, 517 and 523. *)
Definition vec_at (l : list S) (i : nat) : outcome S :=
  match nth_error l i with Some x => Ok x | None => UB end.

(** Unary minus of an Eigen row vector. PolynomialSplineContainer.tpp 532 and 538. *)
Definition vneg (v : list S) : list S := map (fun x => - x) v.

(** One round of the loop of addJunctionsConditions, PolynomialSplineContainer.tpp 513-541 *)
Definition add_junction (o : nat) (durations positions : list S) (id : nat) (y : sys) : outcome sys :=
  let* d := vec_at durations id in
  let* p := vec_at positions (id + 1)%nat in
  let* y := add_condition y (column_index o id) (tau o d) p in
  let* y := add_condition y (column_index o (id + 1)) (tau_zero o) p in
  let* y := set_block y (column_index o id) (dtau o d) in
  let* y := add_condition y (column_index o (id + 1)) (vneg (dtau_zero o)) #0 in
  let* y := set_block y (column_index o id) (ddtau o d) in
  add_condition y (column_index o (id + 1)) (vneg (ddtau_zero o)) #0.

(** addJunctionsConditions, PolynomialSplineContainer.tpp 497-542: the rounds [id], [id+1], ... ([n] of them) *)
Fixpoint add_junctions (o : nat) (durations positions : list S) (n id : nat) (y : sys) : outcome sys :=
  match n with
  | O => Ok y
  | Datatypes.S n' =>
      let* y := add_junction o durations positions id y in
      add_junctions o durations positions n' (id + 1) y
  end.

(** extractSplineCoefficients, PolynomialSplineContainer.tpp 544-560; a segment that does not fit is [UB] *)
Fixpoint extract (o : nat) (coeffs : list S) (durations : list S) (n id : nat) (c : container) : outcome container :=
  match n with
  | O => Ok c
  | Datatypes.S n' =>
      let col := column_index o id in
      if (col + (o + 1) <=? length coeffs)%nat then
        let* d := vec_at durations id in
        extract o coeffs durations n' (id + 1)
          (add_spline c (spline_of (firstn (o + 1) (skipn col coeffs)) d))
      else UB
  end.

(** The loop computing splineDurations, PolynomialSplineContainer.tpp 279-287 and 356-364: [None] is the
    early [return false]. *)
Fixpoint durations_loop (knots : list S) (n id : nat) (acc : list S) : outcome (option (list S)) :=
  match n with
  | O => Ok (Some acc)
  | Datatypes.S n' =>
      let* b := vec_at knots (id + 1)%nat in
      let* a := vec_at knots id in
      let d := b - a in
      if nleb d #0 then Ok None else durations_loop knots n' (id + 1) (acc ++ [d])
  end.

(** Values of [unsigned int]. PolynomialSplineContainer.tpp 255-270 and 332-347. *)
Definition u32 (z : Z) : Z := (z mod 2 ^ 32)%Z.

(** [v.front()] and [v.back()]. PolynomialSplineContainer.tpp 297 and 374. *)
Definition vec_front (l : list S) : outcome S := match l with x :: _ => Ok x | [] => UB end.
(** PolynomialSplineContainer.tpp 302-303 and 379-380. *)
Definition vec_back (l : list S) : outcome S := match rev l with x :: _ => Ok x | [] => UB end.

(** The loop of the two argument setData, PolynomialSplineContainer.tpp 420-430 *)
Fixpoint linear_loop (o : nat) (knots positions : list S) (n id : nat) (c : container) : outcome (bool * container) :=
  match n with
  | O => Ok (true, c)
  | Datatypes.S n' =>
      let* b := vec_at knots (id + 1)%nat in
      let* a := vec_at knots id in
      let d := b - a in
      if nleb d #0 then Ok (false, c)
      else
        let* p0 := vec_at positions id in
        let* p1 := vec_at positions (id + 1)%nat in
        linear_loop o knots positions n' (id + 1)
          (add_spline c (spline_of (repeat #0 (o - 1) ++ [(p1 - p0) / d; p0]) d))
  end.

(** setData(knotDurations, knotPositions), PolynomialSplineContainer.tpp 400-434.  numSplines is a (signed)
    [int] here. *)
Definition set_data2 (o : nat) (c : container) (knots positions : list S) : outcome (bool * container) :=
  let n := (Z.of_nat (length knots) - 1)%Z in
  if (o =? 0)%nat || (n <? 1)%Z then Ok (false, c)
  else linear_loop o knots positions (Z.to_nat n) 0 (reset c).

(** The common part of the four and the six argument setData, PolynomialSplineContainer.tpp 278-319 and
    355-396: compute the durations, build the system, solve it, store the splines. *)
Definition solve_and_store (solve : solver S) (o : nat) (c : container) (knots positions : list S)
    (num_splines num_junctions num_constraints dim : Z) (vel_acc_0 vel_acc_T : list S) : outcome (bool * container) :=
  let* ods := durations_loop knots (Z.to_nat num_splines) 0 [] in
  match ods with
  | None => Ok (false, c)
  | Some durations =>
      let rows := Z.to_nat num_constraints in
      let cols := Z.to_nat dim in
      let y := mkSys (repeat (repeat #0 cols) rows) (repeat #0 rows) 0 in
      let* p0 := vec_front positions in
      let* y := add_initial_conditions o (p0 :: vel_acc_0) y in
      let* pT := vec_back positions in
      let* dT := vec_back durations in
      let* y := add_final_conditions o (pT :: vel_acc_T) dT (Z.to_nat num_junctions) y in
      let* y := add_junctions o durations positions (Z.to_nat num_junctions) 0 y in
      if negb (num_constraints =? Z.of_nat (y_idx y))%Z then Ok (false, c)
      else
        let coeffs := solve cols (y_jac y) (y_tgt y) in
        let* c' := extract o coeffs durations (Z.to_nat num_splines) 0 c in
        Ok (true, c')
  end.

(** setData(knotDurations, knotPositions, initialVelocity, finalVelocity), PolynomialSplineContainer.tpp 323-397 *)
Definition set_data4 (solve : solver S) (o : nat) (c : container) (knots positions : list S)
    (v0 vT : S) : outcome (bool * container) :=
  let c := reset c in
  let num_splines := u32 (Z.of_nat (length knots) - 1) in
  let dim := u32 (num_splines * Z.of_nat (o + 1)) in
  let num_junctions := u32 (num_splines - 1) in
  if (num_splines <? 1)%Z then Ok (false, c)
  else
    let num_constraints := u32 (u32 (num_junctions * 4) + 2 + 2) in
    if (dim <? num_constraints)%Z then set_data2 o c knots positions
    else solve_and_store solve o c knots positions num_splines num_junctions num_constraints dim [v0] [vT].

(** setData(knotDurations, knotPositions, initialVelocity, initialAcceleration,
    finalVelocity, finalAcceleration), PolynomialSplineContainer.tpp 245-320 *)
Definition set_data6 (solve : solver S) (o : nat) (c : container) (knots positions : list S)
    (v0 a0 vT aT : S) : outcome (bool * container) :=
  let c := reset c in
  let num_splines := u32 (Z.of_nat (length knots) - 1) in
  let dim := u32 (num_splines * Z.of_nat (o + 1)) in
  let num_junctions := u32 (num_splines - 1) in
  if (num_splines <? 1)%Z then Ok (false, c)
  else
    let num_constraints := u32 (u32 (num_junctions * 4) + 3 + 3) in
    if (dim <? num_constraints)%Z then set_data4 solve o c knots positions v0 vT
    else solve_and_store solve o c knots positions num_splines num_junctions num_constraints dim [v0; a0] [vT; aT].

End Container.

Arguments container S : clear implicits.
Arguments sys S : clear implicits.
