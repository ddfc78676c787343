(** * C101: times that are infinite or not a number, on IEEE doubles *)

From Coq Require Import ZArith Bool Reals Lra Lia List Arith NArith.
From Flocq Require Import Core IEEE754.BinarySingleNaN.
From Verif Require Import Base TimeOrder TimeB64 TimeInst KeyGen Manager ManagerSpec Num NumB64 Spline Container ContainerSpec SplineCurves
  ColPiv HermiteE3 HermiteB64 Quat Sampling HermiteSE3 SplineErr Props_RoundSpline.
Import ListNotations.

(** ** Specifications *)

Notation plus_infinity := (B754_infinity false : b64).
Notation minus_infinity := (B754_infinity true : b64).

(** All coefficients sit at finite times. *)
Definition finite_times {C} (m : mgr b64 C) : Prop := forall t k, In (t, k) (contents m) -> is_finite t = true.

(** The sum of durations, from left to right. *)
Definition sum_durations (l : list (spline b64)) : b64 := fold_left (fun a s => nadd a (s_duration s)) l (nofZ 0).

(** A finite double with the value of another one. *)
Definition same_number (x y : b64) : Prop := is_finite x = true /\ B2R x = B2R y.

(** ** Hermite curves *)

Lemma lt_special (t x : b64) : is_finite t = false -> is_finite x = true -> t <> minus_infinity -> b64_ltb t x = false.
Proof. intros Ft Fx Hm. destruct t as [| [] | |]; try discriminate; [congruence|now destruct x|now destruct x]. Qed.

Lemma lt_minus (x : b64) : is_finite x = true -> b64_ltb minus_infinity x = true.
Proof. now destruct x as [[]| | |[]]. Qed.

Lemma eq_special (t x : b64) : is_finite t = false -> is_finite x = true ->
  @teq b64 _ t x = false /\ @neqb b64 _ x t = false.
Proof.
  intros Ft Fx. split; [|destruct t as [| [] | |]; try discriminate; now destruct x].
  unfold teq. cbn [tnum b64_raw_TimeOps]. destruct t as [| [] | |]; try discriminate.
  - unfold tequiv. cbn [tlt b64_raw_TimeOps]. rewrite lt_minus by exact Fx. now rewrite andb_false_r.
  - unfold tequiv. cbn [tlt b64_raw_TimeOps]. now destruct x as [[]| | |[]].
  - reflexivity.
Qed.

Section Lookup.
Context {C : Type} (m : mgr b64 C) (t : b64).
Hypothesis Hf : finite_times m.
Hypothesis Ft : is_finite t = false.

Lemma node_finite n : In n (nodes m) -> is_finite (n_time n) = true.
Proof. intros Hn. apply (Hf (n_time n) (n_coef n)). unfold contents. apply in_map_iff. eauto. Qed.

Lemma last_finite : is_finite (max_time m) = true.
Proof.
  unfold max_time, last_node. destruct (rev (nodes m)) as [|n r] eqn:E; [reflexivity|].
  apply node_finite. rewrite in_rev, E. now left.
Qed.

Lemma bracket_special (l : list (node b64 C)) : (forall n, In n l -> is_finite (n_time n) = true) -> t <> minus_infinity ->
  forall p, bracket_from p l t = None.
Proof.
  intros Hl Hm. induction l as [|n l IH]; intros p; cbn [bracket_from]; [reflexivity|].
  cbn [tlt b64_raw_TimeOps]. rewrite lt_special; auto; [|apply Hl; now left].
  apply IH. intros x Hx. apply Hl. now right.
Qed.

Lemma special_eq_dec : {t = minus_infinity} + {t <> minus_infinity}.
Proof. destruct t as [|[]| |]; try (right; discriminate). now left. Qed.

Lemma lookup_special : get_coefficients_at m t = None.
Proof.
  unfold get_coefficients_at. destruct (empty m); [reflexivity|].
  rewrite (proj1 (eq_special t (max_time m) Ft last_finite)).
  pose proof node_finite as Hn. unfold bracket_upper. destruct (nodes m) as [|n l]; [reflexivity|].
  cbn [tlt b64_raw_TimeOps]. destruct special_eq_dec as [->|Hm]; [rewrite lt_minus; auto; apply Hn; now left|].
  rewrite lt_special; auto; [|apply Hn; now left]. apply bracket_special; auto. intros x Hx. apply Hn. now right.
Qed.

Lemma max_special : @neqb b64 _ (max_time m) t = false.
Proof. exact (proj2 (eq_special t (max_time m) Ft last_finite)). Qed.

End Lookup.

(** Every evaluation at such a time reports failure, whatever is in the curve. *)
Theorem C101_E3 : forall (c : e3_curve b64) t order, finite_times c -> is_finite t = false ->
  e3_evaluate c t = Ok None /\ e3_evaluate_derivative c t order = Ok None /\ e3_evaluate_acceleration c t = Ok None.
Proof.
  intros c t order Hf Ft. unfold e3_evaluate, e3_evaluate_derivative, e3_evaluate_acceleration.
  rewrite (max_special c t Hf Ft), (lookup_special c t Hf Ft). cbn [andb].
  repeat split. destruct (N.eqb order 1); [reflexivity|]. now destruct (N.eqb order 2).
Qed.

Theorem C101_SE3 : forall (K : kindr b64) (c : se3_curve b64) t order, finite_times (h_mgr c) -> is_finite t = false ->
  se3_evaluate K c t = Ok None /\ se3_evaluate_derivative K c t order = Ok None /\ se3_evaluate_acceleration c t = Ok None.
Proof.
  intros K c t order Hf Ft. unfold se3_evaluate, se3_evaluate_derivative, se3_evaluate_acceleration.
  rewrite (max_special _ t Hf Ft), (lookup_special _ t Hf Ft). cbn [andb].
  repeat split. now destruct (N.eqb order 1).
Qed.

(** ** Spline containers *)

Lemma sub_nan (t x : b64) : is_nan t = true -> @nsub b64 _ t x = B754_nan.
Proof. destruct t; try discriminate. now destruct x. Qed.

Lemma sub_plus (x d : b64) : @nltb b64 _ (nsub plus_infinity x) d = false.
Proof. destruct x as [|[]| |]; now destruct d as [|[]| |]. Qed.

Lemma loop_last (t : b64) : (forall x d, @nltb b64 _ (nsub t x) d = false) ->
  forall l s i (offset : b64), active_loop (l ++ [s]) i offset t =
    ((i + Z.of_nat (length l))%Z, fold_left (fun a s => nadd a (s_duration s)) l offset).
Proof.
  intros Hlt. induction l as [|a l IH]; intros s i offset.
  - cbn [app active_loop length Z.of_nat fold_left]. rewrite Hlt. cbn [active_loop]. f_equal. lia.
  - cbn [app active_loop fold_left]. rewrite Hlt.
    destruct (l ++ [s]) as [|b r] eqn:E; [now destruct l|]. rewrite <- E, IH. f_equal. cbn [length]. lia.
Qed.

Lemma at_last (f : spline b64 -> b64 -> b64) (c : container b64) l s t :
  (forall x d, @nltb b64 _ (nsub t x) d = false) -> c_splines c = l ++ [s] ->
  get_at f c t = Ok (f s (nsub t (sum_durations l))).
Proof.
  intros Hlt E.
  assert (Ea : active_index_at c t (nofZ 0) = (Z.of_nat (length l), sum_durations l)).
  { unfold active_index_at. rewrite E. pose proof (loop_last t Hlt l s 0 (nofZ 0)) as X.
    assert (NE : l ++ [s] <> []) by (destruct l; discriminate).
    destruct (l ++ [s]) as [|b r]; [congruence|]. exact X. }
  unfold get_at. rewrite Ea.
  rewrite (proj2 (Z.ltb_ge _ _)) by lia.
  assert (Hsz : c_size c = (Z.of_nat (length l) + 1)%Z) by (unfold c_size; rewrite E, app_length; cbn; lia).
  rewrite (proj2 (Z.eqb_neq _ _)).
  2: { rewrite Hsz. pose proof (Z.mod_le (Z.of_nat (length l)) (2 ^ 32) ltac:(lia) ltac:(lia)). lia. }
  unfold spline_at. rewrite (proj2 (Z.ltb_ge _ _)) by lia. rewrite Nat2Z.id, E, nth_error_app2 by lia.
  now rewrite Nat.sub_diag.
Qed.

Local Open Scope R_scope.

Lemma within_same x y : within 0 x (B2R y) -> same_number x y.
Proof.
  intros [F H]. split; [exact F|]. pose proof (Rle_abs (B2R x - B2R y)). pose proof (Rle_abs (- (B2R x - B2R y))) as A.
  rewrite Rabs_Ropp in A. lra.
Qed.

(** NaN is answered as if it were the start of the last spline: a container with finite
    coefficients returns finite numbers, the position and the velocity there. *)
Theorem C101_container_nan : forall o (c : container b64) l s cs c1 c0 (t : b64), (1 <= o <= 5)%nat ->
  c_splines c = l ++ [s] -> s_coefs s = cs ++ [c1; c0] -> length (s_coefs s) = (o + 1)%nat ->
  Forall (fun x => is_finite x = true) (s_coefs s) -> is_finite (s_duration s) = true -> 0 <= B2R (s_duration s) ->
  is_nan t = true ->
  exists p v, get_position_at_time o c t = Ok p /\ same_number p c0 /\
    get_velocity_at_time o c t = Ok v /\ same_number v c1.
Proof.
  intros o c l s cs c1 c0 t Ho E Es Hl Hf Fd Hd Ht.
  assert (Hlt : forall x d, @nltb b64 _ (nsub t x) d = false) by (intros x d; rewrite sub_nan by exact Ht; now destruct d).
  assert (Hz : @nltb b64 _ (nofZ 0) (nsub t (sum_durations l)) = false) by (rewrite sub_nan by exact Ht; reflexivity).
  destruct (C98_start o s (nsub t (sum_durations l)) c1 c0 cs Ho Es Hl Hf Fd Hd Hz) as [P V].
  exists (position_at o s (nsub t (sum_durations l))), (velocity_at o s (nsub t (sum_durations l))).
  unfold get_position_at_time, get_velocity_at_time. rewrite !(at_last _ c l s t Hlt E).
  split; [reflexivity|]. split; [now apply within_same|]. split; [reflexivity|now apply within_same].
Qed.

Lemma plus_sub (x : b64) : is_finite x = true -> @nsub b64 _ plus_infinity x = plus_infinity.
Proof. now destruct x. Qed.

Lemma minus_sub (x : b64) : is_finite x = true -> @nsub b64 _ minus_infinity x = minus_infinity.
Proof. now destruct x. Qed.

Lemma clamp_plus (d : b64) : is_finite d = true -> clamp plus_infinity d = clamp d d.
Proof.
  intros Fd. unfold clamp, nmin. replace (@nltb b64 _ d plus_infinity) with true by now destruct d.
  now destruct (nltb d d).
Qed.

(** Plus infinity is answered like the end, unless the durations overflow. *)
Theorem C101_container_plus : forall o (c : container b64) l s, c_splines c = l ++ [s] ->
  is_finite (sum_durations l) = true -> is_finite (s_duration s) = true ->
  get_position_at_time o c plus_infinity = get_end_position o c /\
  get_velocity_at_time o c plus_infinity = get_end_velocity o c /\
  get_acceleration_at_time o c plus_infinity = get_end_acceleration o c.
Proof.
  intros o c l s E Fl Fd.
  assert (Hend : forall f, get_end f c = Ok (f s (s_duration s))).
  { intros f. unfold get_end, c_size, spline_back. rewrite E, app_length, rev_app_distr. cbn [rev app length].
    now rewrite (proj2 (Z.eqb_neq _ _)) by lia. }
  unfold get_position_at_time, get_velocity_at_time, get_acceleration_at_time, get_end_position, get_end_velocity, get_end_acceleration.
  rewrite !Hend, !(at_last _ c l s plus_infinity sub_plus E), plus_sub by exact Fl.
  unfold position_at, velocity_at, acceleration_at. now rewrite !clamp_plus by exact Fd.
Qed.

(** Minus infinity is answered like the time zero. *)
Theorem C101_container_minus : forall o (c : container b64) s l, c_splines c = s :: l ->
  is_finite (s_duration s) = true -> 0 < B2R (s_duration s) ->
  get_position_at_time o c minus_infinity = get_position_at_time o c (nofZ 0) /\
  get_velocity_at_time o c minus_infinity = get_velocity_at_time o c (nofZ 0) /\
  get_acceleration_at_time o c minus_infinity = get_acceleration_at_time o c (nofZ 0).
Proof.
  intros o c s l E Fd Hd.
  assert (H0 : @nltb b64 _ (nofZ 0) (s_duration s) = true).
  { rewrite nltb_finite by auto. change (B2R (nofZ 0 : b64)) with 0. now apply Rltb_lt. }
  assert (Hm : @nltb b64 _ minus_infinity (s_duration s) = true) by (destruct (s_duration s) as [[]| | |[]]; try discriminate; reflexivity).
  assert (G : forall f t, @nltb b64 _ (nsub t (nofZ 0)) (s_duration s) = true -> get_at f c t = Ok (f s (nsub t (nofZ 0)))).
  { intros f t Ht. unfold get_at, active_index_at. rewrite E. cbn [active_loop]. rewrite Ht. cbn [Z.ltb Z.compare].
    change (0 mod 2 ^ 32)%Z with 0%Z. rewrite (proj2 (Z.eqb_neq _ _)) by (unfold c_size; rewrite E; cbn [length]; lia).
    unfold spline_at. cbn [Z.ltb Z.compare]. now rewrite E. }
  assert (Z0 : @nsub b64 _ (nofZ 0) (nofZ 0) = nofZ 0) by (apply B2SF_inj; vm_compute; reflexivity).
  destruct (C98_before o s minus_infinity Fd ltac:(lra) eq_refl) as (P & V & A).
  unfold get_position_at_time, get_velocity_at_time, get_acceleration_at_time.
  rewrite !(G _ minus_infinity), !(G _ (nofZ 0)) by (rewrite ?Z0, ?minus_sub by reflexivity; assumption).
  rewrite Z0, minus_sub by reflexivity. now rewrite P, V, A.
Qed.

(** ** Stepping a container by NaN *)

(** Not in the source: [advance] for every step of a list; the answers and the container. *)
Fixpoint steps (c : container b64) (dts : list b64) : outcome (list bool * container b64) :=
  match dts with
  | [] => Ok ([], c)
  | dt :: dts' => let* r := advance c dt in let* q := steps (snd r) dts' in Ok (fst r :: fst q, snd q)
  end.

Lemma add_nan (x y : b64) : is_nan x = true \/ is_nan y = true -> is_nan (@nadd b64 _ x y) = true.
Proof. intros [H|H]; [now apply nan_add_l|now apply nan_add_r]. Qed.

Lemma advance_nan (c : container b64) dt s : nth_error (c_splines c) (Z.to_nat (c_active c)) = Some s -> (0 <= c_active c < 2 ^ 64)%Z ->
  nleb (c_duration c) (c_time c) = false -> is_nan (nadd (c_time c) dt) = true ->
  advance c dt = Ok (true, mkContainer (c_splines c) (c_offset c) (nadd (c_time c) dt) (c_duration c) (c_active c)).
Proof.
  intros E Hr Hd Hn.
  assert (L : (Z.to_nat (c_active c) < length (c_splines c))%nat) by (apply nth_error_Some; congruence).
  unfold advance. rewrite Hd. rewrite (proj2 (Z.eqb_neq (c_size c) 0)) by (unfold c_size; lia).
  unfold to_size_t. rewrite Z.mod_small by lia. rewrite (proj2 (Z.eqb_neq _ _)) by (unfold c_size; lia). cbn [orb].
  unfold spline_at. rewrite (proj2 (Z.ltb_ge _ _)) by lia. rewrite E. cbn [bind].
  replace (nleb (s_duration s) (nsub (nadd (c_time c) dt) (c_offset c))) with false; [reflexivity|].
  rewrite sub_nan by exact Hn. now destruct (s_duration s).
Qed.

(** One NaN step while the container runs, and it never ends: all later steps return
    true, and the active spline stays the same. *)
Theorem C101_stuck : forall (c : container b64) dt s dts,
  nth_error (c_splines c) (Z.to_nat (c_active c)) = Some s -> (0 <= c_active c < 2 ^ 64)%Z ->
  nleb (c_duration c) (c_time c) = false -> is_nan dt = true ->
  exists c', steps c (dt :: dts) = Ok (repeat true (S (length dts)), c') /\ c_splines c' = c_splines c /\
    c_active c' = c_active c /\ is_nan (c_time c') = true /\
    (forall o, get_position o c' = Ok (position_at o s B754_nan)).
Proof.
  intros c dt s dts E Hr Hd Hn.
  assert (Now : forall (c : container b64) o, nth_error (c_splines c) (Z.to_nat (c_active c)) = Some s -> (0 <= c_active c < 2 ^ 64)%Z ->
    is_nan (c_time c) = true -> get_position o c = Ok (position_at o s B754_nan)).
  { clear. intros c o E Hr Hn.
    assert (L : (Z.to_nat (c_active c) < length (c_splines c))%nat) by (apply nth_error_Some; congruence).
    unfold get_position, get_now. rewrite (proj2 (Z.eqb_neq (c_size c) 0)) by (unfold c_size; lia).
    unfold to_size_t. rewrite Z.mod_small by lia. rewrite (proj2 (Z.eqb_neq _ _)) by (unfold c_size; lia).
    unfold spline_at. rewrite (proj2 (Z.ltb_ge _ _)) by lia. rewrite E. cbn [bind]. now rewrite sub_nan by exact Hn. }
  enough (X : forall dts c dt, nth_error (c_splines c) (Z.to_nat (c_active c)) = Some s -> (0 <= c_active c < 2 ^ 64)%Z ->
    nleb (c_duration c) (c_time c) = false -> is_nan (nadd (c_time c) dt) = true ->
    exists c', steps c (dt :: dts) = Ok (repeat true (S (length dts)), c') /\ c_splines c' = c_splines c /\
      c_active c' = c_active c /\ is_nan (c_time c') = true).
  { destruct (X dts c dt E Hr Hd) as (c' & A & B & D & F); [now apply add_nan; right|].
    exists c'. repeat (split; [assumption|]). intros o. apply Now; rewrite ?B, ?D; auto. }
  clear - s. induction dts as [|d dts IH]; intros c dt E Hr Hd Hn.
  - cbn [steps]. rewrite (advance_nan c dt s) by assumption. cbn [bind fst snd]. eexists. split; [reflexivity|]. auto.
  - cbn [steps]. rewrite (advance_nan c dt s) by assumption. cbn [bind fst snd].
    match goal with |- exists c', bind (bind (advance ?x _) _) _ = _ /\ _ => set (c1 := x) end.
    assert (Hd1 : @nleb b64 _ (c_duration c1) (c_time c1) = false).
    { unfold c1. cbn [c_duration c_time]. destruct (nadd (c_time c) dt); try discriminate. now destruct (c_duration c). }
    destruct (IH c1 d E Hr Hd1 ltac:(apply add_nan; left; exact Hn)) as (c' & A & B & D & F).
    cbn [steps] in A. rewrite A. cbn [bind fst snd]. exists c'. repeat split; auto.
Qed.

(** Setting the time afterwards repairs it. *)
Theorem C101_repaired : forall (c c' : container b64) t, c_splines c' = c_splines c -> c_duration c' = c_duration c ->
  c_splines c <> [] -> set_container_time c' t = set_container_time c t.
Proof.
  intros c c' t Es Ed Hn. unfold set_container_time, active_index_at. rewrite Es, Ed.
  destruct (c_splines c); [congruence|]. reflexivity.
Qed.

(** ** NaN among the knots *)

Lemma vec_at_nth (l : list b64) i : (i < length l)%nat -> Container.vec_at l i = Ok (nth i l (nofZ 0)).
Proof.
  intros L. unfold Container.vec_at. destruct (nth_error l i) as [x|] eqn:E; [now rewrite (nth_error_nth _ _ _ E)|].
  apply nth_error_None in E. lia.
Qed.

Lemma sub_nan_r (t x : b64) : is_nan x = true -> @nsub b64 _ t x = B754_nan.
Proof. destruct x; try discriminate. now destruct t. Qed.

Lemma linear_nan o (knots P : list b64) : (1 <= o)%nat -> length P = length knots ->
  (forall i, (i + 1 < length knots)%nat -> @nleb b64 _ (nsub (nth (i + 1) knots (nofZ 0)) (nth i knots (nofZ 0))) (nofZ 0) = false) ->
  forall n id (c : container b64), (id + n + 1 = length knots)%nat ->
  exists c', linear_loop o knots P n id c = Ok (true, c') /\
    (forall s, In s (c_splines c) -> In s (c_splines c')) /\
    forall k, (id <= k < id + n)%nat ->
      In (spline_of (repeat (nofZ 0) (o - 1) ++ [ndiv (nsub (nth (k + 1) P (nofZ 0)) (nth k P (nofZ 0)))
            (nsub (nth (k + 1) knots (nofZ 0)) (nth k knots (nofZ 0))); nth k P (nofZ 0)])
          (nsub (nth (k + 1) knots (nofZ 0)) (nth k knots (nofZ 0)))) (c_splines c').
Proof.
  intros Ho LP Hk. induction n as [|n IH]; intros id c L; cbn [linear_loop].
  - exists c. split; [reflexivity|]. split; [auto|]. intros; lia.
  - rewrite !vec_at_nth by lia. cbn [bind]. rewrite Hk by lia. cbn [bind].
    match goal with |- context [linear_loop _ _ _ _ _ ?x] => destruct (IH (id + 1)%nat x) as (c' & E & Hin & Hall); [lia|] end.
    exists c'. split; [exact E|]. split.
    + intros s Hs. apply Hin. unfold add_spline. cbn [c_splines]. apply in_or_app. now left.
    + intros k Hkk. destruct (Nat.eq_dec k id) as [->|Hne]; [|apply Hall; lia].
      apply Hin. unfold add_spline. cbn [c_splines]. apply in_or_app. right. now left.
Qed.

(** A NaN among the knots passes the test for increasing knots: the two argument setData
    accepts it.  The container it makes does not pass checkContainer. *)
Theorem C101_nan_knot : forall o (c : container b64) (knots P : list b64) i, (1 <= o)%nat -> (2 <= length knots)%nat ->
  length P = length knots -> nth_error knots i = Some (B754_nan : b64) ->
  (forall j, (j + 1 < length knots)%nat -> @nleb b64 _ (nsub (nth (j + 1) knots (nofZ 0)) (nth j knots (nofZ 0))) (nofZ 0) = false) ->
  exists c', set_data2 o c knots P = Ok (true, c') /\ check_container c' = false.
Proof.
  intros o c knots P i Ho Hlen LP Hi Hk. unfold set_data2. cbv zeta.
  rewrite (proj2 (Nat.eqb_neq o 0)), (proj2 (Z.ltb_ge (Z.of_nat (length knots) - 1) 1)) by lia. cbn [orb].
  replace (Z.to_nat (Z.of_nat (length knots) - 1)) with (length knots - 1)%nat by lia.
  destruct (linear_nan o knots P Ho LP Hk (length knots - 1) 0 (reset c)) as (c' & E & _ & Hall); [lia|].
  exists c'. split; [exact E|].
  assert (Li : (i < length knots)%nat) by (apply nth_error_Some; congruence).
  apply (nth_error_nth _ _ (nofZ 0 : b64)) in Hi.
  set (k := if (i =? 0)%nat then 0%nat else (i - 1)%nat).
  assert (Hkk : (0 <= k < 0 + (length knots - 1))%nat) by (unfold k; destruct (i =? 0)%nat eqn:E0; rewrite ?Nat.eqb_eq, ?Nat.eqb_neq in E0; lia).
  specialize (Hall k Hkk).
  assert (Hd : @nsub b64 _ (nth (k + 1) knots (nofZ 0)) (nth k knots (nofZ 0)) = B754_nan).
  { unfold k. destruct (i =? 0)%nat eqn:E0; rewrite ?Nat.eqb_eq, ?Nat.eqb_neq in E0.
    - subst i. apply sub_nan_r. now rewrite Hi.
    - replace (i - 1 + 1)%nat with i by lia. apply sub_nan. now rewrite Hi. }
  rewrite Hd in Hall. unfold check_container.
  destruct (nltb (c_time c') (nofZ 0)); [reflexivity|]. destruct (nltb (c_duration c') (nofZ 0)); [reflexivity|].
  destruct (nltb (c_duration c') (c_time c')); [reflexivity|]. destruct (c_active c' <? 0)%Z; [reflexivity|].
  apply not_true_iff_false. intros X. rewrite forallb_forall in X. specialize (X _ Hall).
  apply andb_true_iff in X as [_ X]. unfold spline_of in X. cbn [s_coefs] in X. rewrite forallb_app in X.
  apply andb_true_iff in X as [_ X]. cbn [forallb] in X. apply andb_true_iff in X as [X _].
  replace (@ndiv b64 _ (nsub (nth (k + 1) P (nofZ 0)) (nth k P (nofZ 0))) B754_nan) with (B754_nan : b64) in X; [discriminate|].
  now destruct (nsub (nth (k + 1) P (nofZ 0)) (nth k P (nofZ 0))).
Qed.

(** The six argument setData accepts it as well. *)
Theorem C101_nan_knot_solved : exists (knots P : list b64) c', nth_error knots 1 = Some (B754_nan : b64) /\
  set_data6 pivoted 5 c_new knots P (nofZ 0) (nofZ 0) (nofZ 0) (nofZ 0) = Ok (true, c').
Proof.
  pose (r := set_data6 (S := b64) pivoted 5 c_new [nofZ 0; B754_nan; nofZ 2] [nofZ 0; nofZ 1; nofZ 2] (nofZ 0) (nofZ 0) (nofZ 0) (nofZ 0)).
  assert (X : match r with Ok (true, _) => true | _ => false end = true) by (vm_compute; reflexivity).
  destruct r as [[[] c']| | |] eqn:E; try discriminate X.
  exists [nofZ 0; B754_nan; nofZ 2], [nofZ 0; nofZ 1; nofZ 2], c'. split; [reflexivity|exact E].
Qed.

(** A fitted scalar curve therefore succeeds at NaN, with the start of its last piece. *)
Theorem C101_scalar_nan : forall o (c : scalar_curve b64) l s cs c1 c0 (t : b64), (1 <= o <= 5)%nat ->
  c_splines (sc_container c) = l ++ [s] -> s_coefs s = cs ++ [c1; c0] -> length (s_coefs s) = (o + 1)%nat ->
  Forall (fun x => is_finite x = true) (s_coefs s) -> is_finite (s_duration s) = true -> 0 <= B2R (s_duration s) ->
  is_nan t = true ->
  exists p, sc_evaluate o c t = Ok (true, p) /\ same_number p c0.
Proof.
  intros o c l s cs c1 c0 t Ho E Es Hl Hf Fd Hd Ht.
  destruct (C101_container_nan o (sc_container c) l s cs c1 c0 (nsub t (sc_min c)) Ho E Es Hl Hf Fd Hd) as (p & v & P & Sp & _).
  { now rewrite sub_nan. }
  exists p. unfold sc_evaluate. rewrite P. now split.
Qed.

(** ** Examples *)

(** Two pieces, from 0 over 1 to 3. *)
Definition two_pieces : container b64 :=
  mkContainer [spline_of [nofZ 1; nofZ 0] (nofZ 1); spline_of [nofZ 2; nofZ 1] (nofZ 1)] (nofZ 0) (nofZ 0) (nofZ 2) 0.

Example C101_example :
  (exists s s', c_splines two_pieces = [s] ++ [s'] /\
    nth_error (c_splines two_pieces) (Z.to_nat (c_active two_pieces)) = Some s /\
    s_coefs s' = [] ++ [nofZ 2; nofZ 1] /\ length (s_coefs s') = 2%nat /\
    Forall (fun x => is_finite x = true) (s_coefs s') /\ is_finite (s_duration s) = true /\ is_finite (s_duration s') = true /\
    is_finite (sum_durations [s]) = true /\ 0 < B2R (s_duration s) /\ 0 < B2R (s_duration s')) /\
  @nleb b64 _ (c_duration two_pieces) (c_time two_pieces) = false /\ is_nan (B754_nan : b64) = true /\
  finite_times (mgr_empty : e3_curve b64) /\ finite_times (h_mgr (se3_new : se3_curve b64)) /\
  (forall j, (j + 1 < 3)%nat -> @nleb b64 _ (nsub (nth (j + 1) [nofZ 0; B754_nan; nofZ 2] (nofZ 0))
      (nth j [nofZ 0; B754_nan; nofZ 2] (nofZ 0))) (nofZ 0) = false).
Proof.
  split.
  { exists (spline_of [nofZ 1; nofZ 0] (nofZ 1)), (spline_of [nofZ 2; nofZ 1] (nofZ 1)).
    assert (O : 0 < B2R (nofZ 1 : b64)).
    { destruct (val_int 1) as [_ ->]; [vm_compute; discriminate|lra]. }
    split; [reflexivity|]. split; [reflexivity|]. split; [reflexivity|]. split; [reflexivity|].
    split; [repeat constructor|]. split; [reflexivity|]. split; [reflexivity|].
    split; [vm_compute; reflexivity|]. split; exact O. }
  split; [vm_compute; reflexivity|]. split; [reflexivity|]. split; [intros ? ? []|]. split; [intros ? ? []|].
  intros [|[|j]] L; [vm_compute; reflexivity|vm_compute; reflexivity|lia].
Qed.
