(** * C31 - C33: the scalar and the vector valued spline curve, over the reals *)

From Coquelicot Require Import Coquelicot.
From Coq Require Import List Reals Lra Lia Bool Arith ZArith.
From Verif Require Import Base Num TimeInst Spline SplineSpec LinSpec SplineProofs
  Container ContainerSpec ContainerProofs SetDataSpec SetDataProofs SetDataExist SetDataTraj SetDataTop
  Props_Container Props_SetData SplineCurves.
Import ListNotations.
Local Open Scope R_scope.

(** ** Scalar curve *)

(** The values of the curve as functions of time. *)
Definition sc_value (o : nat) (c : scalar_curve R) (t : R) : R :=
  match sc_evaluate o c t with Ok (_, v) => v | _ => 0 end.
Definition sc_derivative (o : nat) (c : scalar_curve R) (n : Z) (t : R) : R :=
  match sc_evaluate_derivative o c 0 t n with Ok (_, v) => v | _ => 0 end.

Lemma fit_container (solve : solver R) o sc times values v0 a0 vT aT b c' :
  times <> [] -> set_data6 solve o (sc_container sc) times values v0 a0 vT aT = Ok (b, c') ->
  sc_fit_boundary solve o sc times values v0 a0 vT aT = Ok (mkScalar c' (nth 0 times 0)).
Proof.
  intros Hl E. unfold sc_fit_boundary. rewrite E. destruct times; [congruence|]. reflexivity.
Qed.

Lemma valid_nonempty knots P : valid_knots knots P -> knots <> [].
Proof. intros (H & _) E. subst. cbn in H. lia. Qed.

Theorem C31_passes_through : forall (solve : solver R) o sc times values v0 a0 vT aT,
  exact_solver solve -> (1 <= o <= 5)%nat -> valid_knots times values ->
  exists sc', sc_fit_boundary solve o sc times values v0 a0 vT aT = Ok sc' /\
    sc_get_min_time sc' = nth 0 times 0 /\
    sc_get_max_time sc' = nth (length times - 1) times 0 /\
    (forall i, (i < length times)%nat -> sc_evaluate o sc' (nth i times 0) = Ok (true, nth i values 0)) /\
    (forall t, exists v, sc_evaluate o sc' t = Ok (true, v)) /\
    (forall t, t <= nth 0 times 0 -> sc_evaluate o sc' t = Ok (true, nth 0 values 0)) /\
    (forall t, nth (length times - 1) times 0 <= t ->
       sc_evaluate o sc' t = Ok (true, nth (length times - 1) values 0)).
Proof.
  intros solve o sc times values v0 a0 vT aT Hs Ho Hv. pose proof Hv as (Hlen & _).
  destruct (C26_six_arguments solve o (sc_container sc) times values v0 a0 vT aT Hs Ho Hv) as (c' & E & A & B).
  destruct (C52_six_arguments solve o (sc_container sc) times values v0 a0 vT aT Hs Ho Hv) as (c'' & E' & F).
  rewrite E in E'. injection E' as <-.
  exists (mkScalar c' (nth 0 times 0)).
  split; [now apply (fit_container _ _ _ _ _ _ _ _ _ true), E; apply (valid_nonempty _ _ Hv)|].
  destruct F as (_ & _ & _ & _ & _ & _ & F0 & FT & Fe & _).
  unfold sc_get_min_time, sc_get_max_time, sc_evaluate. cbn [sc_container sc_min]. unfold duration_of in *. numR.
  split; [reflexivity|]. split; [rewrite B; ring|].
  split; [intros i Hi; now rewrite (A i Hi)|].
  split.
  { intros t. destruct (Fe (t - nth 0 times 0)) as (p & _ & _ & Ep & _). rewrite Ep. cbn. eauto. }
  split; intros t Ht; [rewrite F0 by lra|rewrite FT by lra]; reflexivity.
Qed.

Theorem C31_boundary : forall (solve : solver R) sc times values v0 a0 vT aT,
  exact_solver solve -> valid_knots times values ->
  exists sc', sc_fit_boundary solve 5 sc times values v0 a0 vT aT = Ok sc' /\
    forall old,
    sc_evaluate_derivative 5 sc' old (sc_get_min_time sc') 1 = Ok (true, v0) /\
    sc_evaluate_derivative 5 sc' old (sc_get_min_time sc') 2 = Ok (true, a0) /\
    sc_evaluate_derivative 5 sc' old (sc_get_max_time sc') 1 = Ok (true, vT) /\
    sc_evaluate_derivative 5 sc' old (sc_get_max_time sc') 2 = Ok (true, aT).
Proof.
  intros solve sc times values v0 a0 vT aT Hs Hv.
  destruct (result6 solve 5 (sc_container sc) times values v0 a0 vT aT Hs Hv ltac:(auto))
    as (c' & E & _ & B & _ & V0 & VT & A0 & AT).
  exists (mkScalar c' (nth 0 times 0)).
  split; [now apply (fit_container _ _ _ _ _ _ _ _ _ true), E; apply (valid_nonempty _ _ Hv)|].
  intros old. unfold sc_get_min_time, sc_get_max_time, sc_evaluate_derivative. cbn [sc_container sc_min Z.eqb Pos.eqb].
  numR. rewrite B. replace (nth 0 times 0 - nth 0 times 0) with 0 by ring.
  replace (duration_of times + nth 0 times 0 - nth 0 times 0) with (duration_of times) by ring.
  rewrite V0, VT, A0, AT. repeat split.
Qed.

(** The overload without boundary values: the same with derivatives zero at both ends. *)
Theorem C31_default : forall (solve : solver R) sc times values,
  exact_solver solve -> valid_knots times values ->
  exists sc', sc_fit solve 5 sc times values = Ok sc' /\
    sc_get_min_time sc' = nth 0 times 0 /\
    sc_get_max_time sc' = nth (length times - 1) times 0 /\
    (forall i, (i < length times)%nat -> sc_evaluate 5 sc' (nth i times 0) = Ok (true, nth i values 0)) /\
    forall old n, (n = 1 \/ n = 2)%Z ->
      sc_evaluate_derivative 5 sc' old (nth 0 times 0) n = Ok (true, 0) /\
      sc_evaluate_derivative 5 sc' old (nth (length times - 1) times 0) n = Ok (true, 0).
Proof.
  intros solve sc times values Hs Hv.
  destruct (C31_passes_through solve 5 sc times values 0 0 0 0 Hs ltac:(lia) Hv) as (sc' & E & A & B & C & _).
  destruct (C31_boundary solve sc times values 0 0 0 0 Hs Hv) as (sc'' & E' & D).
  rewrite E in E'. injection E' as <-. exists sc'. split; [exact E|]. split; [exact A|]. split; [exact B|].
  split; [exact C|]. intros old n Hn. rewrite <- A, <- B. destruct (D old) as (D1 & D2 & D3 & D4).
  destruct Hn as [-> | ->]; auto.
Qed.

Lemma shift_limit (f : R -> R) s t l : derivable_pt_lim f (t - s) l -> derivable_pt_lim (fun x => f (x - s)) t l.
Proof. intros H. apply shift_derive. now apply is_derive_Reals. Qed.

Theorem C31_smooth : forall (solve : solver R) o sc times values v0 a0 vT aT,
  exact_solver solve -> (3 <= o <= 5)%nat -> valid_knots times values ->
  exists sc', sc_fit_boundary solve o sc times values v0 a0 vT aT = Ok sc' /\
    forall t, sc_get_min_time sc' < t < sc_get_max_time sc' ->
      derivable_pt_lim (sc_value o sc') t (sc_derivative o sc' 1 t) /\
      derivable_pt_lim (sc_derivative o sc' 1) t (sc_derivative o sc' 2 t) /\
      continuity_pt (sc_derivative o sc' 2) t.
Proof.
  intros solve o sc times values v0 a0 vT aT Hs Ho Hv.
  destruct (C27_six_arguments solve o (sc_container sc) times values v0 a0 vT aT Hs Ho Hv) as (c' & E & (Hp & _) & (Ha & _) & Hc).
  destruct (C26_six_arguments solve o (sc_container sc) times values v0 a0 vT aT Hs ltac:(lia) Hv) as (c'' & E' & _ & B).
  rewrite E in E'. injection E' as <-.
  exists (mkScalar c' (nth 0 times 0)).
  split; [now apply (fit_container _ _ _ _ _ _ _ _ _ true), E; apply (valid_nonempty _ _ Hv)|].
  unfold sc_get_min_time, sc_get_max_time. cbn [sc_container sc_min]. numR. rewrite B.
  intros t Ht. set (m := nth 0 times 0) in *.
  assert (E0 : forall x, sc_value o (mkScalar c' m) x = position o c' (x - m)).
  { intros x. unfold sc_value, sc_evaluate, position. cbn [sc_container sc_min]. numR.
    now destruct (get_position_at_time o c' (x - m)). }
  assert (E1 : forall x, sc_derivative o (mkScalar c' m) 1 x = velocity o c' (x - m)).
  { intros x. unfold sc_derivative, sc_evaluate_derivative, velocity. cbn [sc_container sc_min Z.eqb Pos.eqb]. numR.
    now destruct (get_velocity_at_time o c' (x - m)). }
  assert (E2 : forall x, sc_derivative o (mkScalar c' m) 2 x = acceleration o c' (x - m)).
  { intros x. unfold sc_derivative, sc_evaluate_derivative, acceleration. cbn [sc_container sc_min Z.eqb Pos.eqb]. numR.
    now destruct (get_acceleration_at_time o c' (x - m)). }
  assert (Hin : 0 < t - m < duration_of times) by lra.
  split; [|split].
  - rewrite E1. apply is_derive_Reals_ext with (f := fun x => position o c' (x - m)); [intros; now rewrite E0|].
    apply shift_limit. apply Hp, Hin.
  - rewrite E2. apply is_derive_Reals_ext with (f := fun x => velocity o c' (x - m)); [intros; now rewrite E1|].
    apply shift_limit. apply Ha, Hin.
  - assert (Hcomp : continuity_pt (fun x => acceleration o c' (x - m)) t).
    { apply (continuity_pt_comp (fun x => x - m) (acceleration o c') t); [reg|apply Hc, Hin]. }
    intros eps He. destruct (Hcomp eps He) as (d & Hd & H). exists d. split; [exact Hd|].
    intros x Hx. rewrite !E2. apply H, Hx.
Qed.

(** *** Shifting the times *)

Lemma nth_error_shift (l : list R) d i : nth_error (map (fun t => t + d) l) i = option_map (fun t => t + d) (nth_error l i).
Proof. apply nth_error_map. Qed.

Lemma durations_shift knots d : forall n id acc,
  durations_loop (map (fun t => t + d) knots) n id acc = durations_loop knots n id acc.
Proof.
  induction n as [|n IH]; intros id acc; [reflexivity|]. cbn [durations_loop].
  unfold vec_at. rewrite !nth_error_shift.
  destruct (nth_error knots (id + 1)) as [b|]; [|reflexivity]. cbn [option_map bind].
  destruct (nth_error knots id) as [a|]; [|reflexivity]. cbn [option_map bind]. numR.
  replace (b + d - (a + d)) with (b - a) by ring. destruct (negb (Rltb 0 (b - a))); auto.
Qed.

Lemma linear_shift o knots d P : forall n id c,
  linear_loop o (map (fun t => t + d) knots) P n id c = linear_loop o knots P n id c.
Proof.
  induction n as [|n IH]; intros id c; [reflexivity|]. cbn [linear_loop].
  unfold vec_at. rewrite !nth_error_shift.
  destruct (nth_error knots (id + 1)) as [b|]; [|reflexivity]. cbn [option_map bind].
  destruct (nth_error knots id) as [a|]; [|reflexivity]. cbn [option_map bind]. numR.
  replace (b + d - (a + d)) with (b - a) by ring. destruct (negb (Rltb 0 (b - a))); auto.
  destruct (nth_error P id); [|reflexivity]. cbn [bind].
  destruct (nth_error P (id + 1)); [|reflexivity]. cbn [bind]. apply IH.
Qed.

Lemma set_data6_shift (solve : solver R) o c knots d P v0 a0 vT aT :
  set_data6 solve o c (map (fun t => t + d) knots) P v0 a0 vT aT = set_data6 solve o c knots P v0 a0 vT aT.
Proof.
  unfold set_data6, set_data4, set_data2, solve_and_store. rewrite !map_length, !durations_shift.
  repeat match goal with |- (if ?b then _ else _) = _ => destruct b; auto end.
  apply linear_shift.
Qed.

(** Shifted times give the same curve at shifted times, whatever the input. *)
Theorem C31_shift : forall (solve : solver R) o sc times values v0 a0 vT aT d sc1,
  sc_fit_boundary solve o sc times values v0 a0 vT aT = Ok sc1 ->
  exists sc2, sc_fit_boundary solve o sc (map (fun t => t + d) times) values v0 a0 vT aT = Ok sc2 /\
    sc_get_min_time sc2 = sc_get_min_time sc1 + d /\ sc_get_max_time sc2 = sc_get_max_time sc1 + d /\
    forall t old n, sc_evaluate o sc2 (t + d) = sc_evaluate o sc1 t /\
      sc_evaluate_derivative o sc2 old (t + d) n = sc_evaluate_derivative o sc1 old t n.
Proof.
  intros solve o sc times values v0 a0 vT aT d sc1 E. unfold sc_fit_boundary in *.
  rewrite set_data6_shift. destruct (set_data6 solve o (sc_container sc) times values v0 a0 vT aT) as [r| | |]; try discriminate.
  cbn [bind] in *. destruct times as [|t0 times]; [discriminate|]. cbn in E. injection E as <-.
  cbn. eexists. split; [reflexivity|]. unfold sc_get_min_time, sc_get_max_time, sc_evaluate, sc_evaluate_derivative.
  cbn [sc_container sc_min]. numR. split; [reflexivity|]. split; [ring|].
  intros t old n. replace (t + d - (t0 + d)) with (t - t0) by ring. split; reflexivity.
Qed.

(** Other derivative orders fail and leave the output alone. *)
Theorem C31_orders : forall o (c : scalar_curve R) old t n, n <> 1%Z -> n <> 2%Z ->
  sc_evaluate_derivative o c old t n = Ok (false, old).
Proof.
  intros o c old t n H1 H2. unfold sc_evaluate_derivative.
  destruct (Z.eqb_spec n 1); [congruence|]. destruct (Z.eqb_spec n 2); [congruence|]. reflexivity.
Qed.

(** ** C32 *)

Theorem C32_silent_failure : forall (solve : solver R) sc times values v0 a0 vT aT i,
  (Z.of_nat (length times) < 2 ^ 29)%Z ->
  (i + 1 < length times)%nat -> nth (i + 1) times 0 <= nth i times 0 ->
  exists sc', sc_fit_boundary solve 5 sc times values v0 a0 vT aT = Ok sc' /\
    sc_get_min_time sc' = nth 0 times 0 /\ sc_get_max_time sc' = nth 0 times 0 /\
    forall t, sc_evaluate 5 sc' t = Ok (true, 0).
Proof.
  intros solve sc times values v0 a0 vT aT i Hsm Hi Hle.
  pose proof (set_data6_rejects solve 5 (sc_container sc) times values v0 a0 vT aT i ltac:(lia) Hsm Hi Hle) as E.
  exists (mkScalar (reset (sc_container sc)) (nth 0 times 0)).
  split; [apply (fit_container _ _ _ _ _ _ _ _ _ false); [destruct times; cbn in *; [lia|discriminate]|exact E]|].
  split; [reflexivity|]. split; [unfold sc_get_max_time; cbn; numR; ring|]. reflexivity.
Qed.

(** Fitting time and value lists clears: the result does not depend on the curve before. *)
Theorem C32_replaces : forall (solve : solver R) sc1 sc2 times values v0 a0 vT aT o,
  sc_fit_boundary solve o sc1 times values v0 a0 vT aT = sc_fit_boundary solve o sc2 times values v0 a0 vT aT.
Proof. reflexivity. Qed.

(** Fitting an option list appends. *)
Theorem C32_option_list_appends : forall (solve : solver R) sc opts,
  sc_get_min_time (sc_fit_options solve sc opts) = 0 /\
  c_splines (sc_container (sc_fit_options solve sc opts)) =
    c_splines (sc_container sc) ++ map (spline_of_options solve 5) opts /\
  sc_get_max_time (sc_fit_options solve sc opts) =
    get_container_duration (sc_container sc) + fold_right Rplus 0 (map o_tf opts).
Proof.
  intros solve sc opts. unfold sc_fit_options, sc_get_min_time, sc_get_max_time, get_container_duration.
  cbn [sc_container sc_min]. split; [reflexivity|].
  generalize (sc_container sc). induction opts as [|p opts IH]; intros c; cbn [fold_left map fold_right].
  - rewrite app_nil_r. numR. split; [reflexivity|ring].
  - destruct (IH (add_spline c (spline_of_options solve 5 p))) as [A B]. split.
    + rewrite A. cbn. now rewrite <- app_assoc.
    + rewrite B. cbn [c_duration add_spline s_duration spline_of_options]. numR. ring.
Qed.

(** So "fitCurve clears the existing curve" fails: the first value of the new curve
    is still the first value of the old one. *)
Theorem C32_option_list_clears_refuted :
  ~ (forall (solve : solver R) sc1 sc2 opts, exact_solver solve ->
       sc_evaluate 5 (sc_fit_options solve sc1 opts) 0 = sc_evaluate 5 (sc_fit_options solve sc2 opts) 0).
Proof.
  intros H.
  specialize (H gauss sc_new (mkScalar (add_spline c_new (spline_of [0; 0; 0; 0; 0; 7] 1)) 0) [] gauss_exact).
  unfold sc_evaluate, sc_fit_options in H. cbn [fold_left sc_container sc_min] in H.
  set (c := add_spline c_new (spline_of [0; 0; 0; 0; 0; 7] 1)) in H.
  assert (E : get_position_at_time 5 c (0 - 0) = Ok 7).
  { destruct (C23_at_time 5 c (0 - 0) 0 (spline_of [0; 0; 0; 0; 0; 7] 1)) as [-> _].
    - repeat constructor; cbn; lra.
    - reflexivity.
    - split; [cbn; lia|]. split; [now left|]. now right.
    - reflexivity.
    - f_equal. rewrite start_0. rewrite position_poly by (cbn; lia).
      unfold poly. cbn. unfold restrict. rewrite Rmin_left by lra. rewrite Rmax_left by lra. ring. }
  numR. change (#0%num) with 0 in H. unfold sc_new in H. cbn [sc_container sc_min] in H.
  rewrite E in H. cbn [bind] in H. cbn in H. injection H as H. lra.
Qed.

(** ** Vector curve *)

(** Component [i] of the data *)
Definition component_of (values : list (list R)) (i : nat) : list R := map (fun v => nth i v 0) values.

(** Valid data for a curve with [n] components *)
Definition valid_vectors (n : nat) (times : list R) (values : list (list R)) : Prop :=
  (2 <= length times)%nat /\ increasing times /\ length values = length times /\
  (Z.of_nat (length times) < 2 ^ 29)%Z /\ Forall (fun v => length v = n) values.

Lemma entry_nth (v : list R) i : (i < length v)%nat -> entry v i = Ok (nth i v 0).
Proof.
  intros Hi. unfold entry. rewrite (nth_error_nth' v 0 Hi). reflexivity.
Qed.

Lemma component_ok n i : (i < n)%nat -> forall values, Forall (fun v => length v = n) values ->
  component values i (length values) = Ok (component_of values i).
Proof.
  intros Hi values H. induction H as [|v l Hv Hl IH]; [reflexivity|].
  cbn [component length component_of map]. rewrite entry_nth by lia. cbn [bind]. now rewrite IH.
Qed.

Lemma component_length values i : length (component_of values i) = length values.
Proof. apply map_length. Qed.

Lemma valid_component n times values i : valid_vectors n times values -> valid_knots times (component_of values i).
Proof.
  intros (A & B & C & D & _). split; [exact A|]. split; [exact B|]. split; [now rewrite component_length|exact D].
Qed.

(** The fitted containers. *)
Lemma fit_loop_ok (solve : solver R) n times values v0 a0 vT aT : exact_solver solve -> valid_vectors n times values ->
  length v0 = n -> length a0 = n -> length vT = n -> length aT = n ->
  forall ks i, (i + length ks = n)%nat ->
  exists ks', vc_fit_loop solve times values v0 a0 vT aT i ks = Ok ks' /\ length ks' = length ks /\
    forall j, (j < length ks)%nat -> exists k k',
      nth_error ks' j = Some k' /\
      set_data6 solve 5 k times (component_of values (i + j))
        (nth (i + j) v0 0) (nth (i + j) a0 0) (nth (i + j) vT 0) (nth (i + j) aT 0) = Ok (true, k').
Proof.
  intros Hs Hv L1 L2 L3 L4. pose proof Hv as (_ & _ & Lv & _ & Hall).
  induction ks as [|k ks IH]; intros i Hi.
  - exists []. split; [reflexivity|]. split; [reflexivity|]. cbn. lia.
  - cbn [length] in Hi. cbn [vc_fit_loop].
    rewrite <- Lv, (component_ok n) by (auto; lia). cbn [bind].
    rewrite !entry_nth by lia. cbn [bind].
    destruct (C26_six_arguments solve 5 k times (component_of values i) (nth i v0 0) (nth i a0 0) (nth i vT 0) (nth i aT 0)
      Hs ltac:(lia) (valid_component n times values i Hv)) as (k' & E & _).
    rewrite E. cbn [bind snd].
    destruct (IH (S i) ltac:(lia)) as (ks' & E' & L' & H'). rewrite E'. cbn [bind].
    exists (k' :: ks'). split; [reflexivity|]. split; [cbn; lia|].
    intros [|j] Hj.
    + exists k, k'. rewrite Nat.add_0_r. split; [reflexivity|exact E].
    + destruct (H' j ltac:(cbn in Hj; lia)) as (k0 & k1 & A & B).
      exists k0, k1. split; [exact A|]. now rewrite Nat.add_succ_r.
Qed.

Lemma for_each_ok {A B} (f : A -> outcome B) (l : list A) (g : nat -> B) :
  (forall j a, nth_error l j = Some a -> f a = Ok (g j)) -> for_each f l = Ok (map g (seq 0 (length l))).
Proof.
  revert g. induction l as [|a l IH]; intros g H; [reflexivity|].
  cbn [for_each length seq map]. rewrite (H 0%nat a eq_refl). cbn [bind].
  rewrite (IH (fun j => g (S j))) by (intros j b E; apply (H (S j) b E)).
  cbn [bind]. f_equal. f_equal. rewrite <- seq_shift, map_map. reflexivity.
Qed.

Lemma seq_components v n : length v = n -> map (fun j => nth j v 0) (seq 0 n) = v.
Proof.
  intros L. apply nth_ext with (d := 0) (d' := 0); [now rewrite map_length, seq_length|].
  intros i Hi. rewrite map_length, seq_length in Hi. now rewrite nth_map_seq.
Qed.

Theorem C33_relative_time : forall (solve : solver R) vc times values v0 a0 vT aT,
  exact_solver solve -> vc_containers vc <> [] -> valid_vectors (length (vc_containers vc)) times values ->
  length v0 = length (vc_containers vc) -> length a0 = length (vc_containers vc) ->
  length vT = length (vc_containers vc) -> length aT = length (vc_containers vc) ->
  exists vc', vc_fit_boundary solve vc times values v0 a0 vT aT = Ok vc' /\
    vc_get_min_time vc' = nth 0 times 0 /\
    vc_get_max_time vc' = Ok (nth (length times - 1) times 0 - nth 0 times 0) /\
    (forall i, (i < length times)%nat ->
       vc_evaluate vc' (nth i times 0 - nth 0 times 0) = Ok (true, nth i values [])) /\
    (forall old,
       vc_evaluate_derivative vc' old 0 1 = Ok (true, v0) /\
       vc_evaluate_derivative vc' old 0 2 = Ok (true, a0) /\
       vc_evaluate_derivative vc' old (nth (length times - 1) times 0 - nth 0 times 0) 1 = Ok (true, vT) /\
       vc_evaluate_derivative vc' old (nth (length times - 1) times 0 - nth 0 times 0) 2 = Ok (true, aT)).
Proof.
  intros solve vc times values v0 a0 vT aT Hs Hn Hv L1 L2 L3 L4.
  destruct (fit_loop_ok solve _ times values v0 a0 vT aT Hs Hv L1 L2 L3 L4 (vc_containers vc) 0 eq_refl)
    as (ks' & E & L & H).
  pose proof Hv as (Hlen & _ & Lv & _ & Hall).
  exists (mkVector ks' (nth 0 times 0)). unfold vc_fit_boundary. rewrite E.
  destruct times as [|t0 times]; [cbn in Hlen; lia|]. set (ts := t0 :: times) in *.
  split; [reflexivity|]. split; [reflexivity|].
  assert (Hk : forall j k', nth_error ks' j = Some k' ->
    exists k, set_data6 solve 5 k ts (component_of values j) (nth j v0 0) (nth j a0 0) (nth j vT 0) (nth j aT 0) = Ok (true, k')).
  { intros j k' Ej. assert (Hj : (j < length ks')%nat) by (apply nth_error_Some; congruence).
    destruct (H j ltac:(lia)) as (k & k'' & A & B). rewrite Ej in A. injection A as <-. eauto. }
  assert (Hall6 : forall j k', nth_error ks' j = Some k' ->
    interpolates 5 k' ts (component_of values j) /\ get_container_duration k' = duration_of ts /\
    get_velocity_at_time 5 k' 0 = Ok (nth j v0 0) /\ get_velocity_at_time 5 k' (duration_of ts) = Ok (nth j vT 0) /\
    get_acceleration_at_time 5 k' 0 = Ok (nth j a0 0) /\ get_acceleration_at_time 5 k' (duration_of ts) = Ok (nth j aT 0)).
  { intros j k' Ej. destruct (Hk j k' Ej) as (k & B).
    destruct (result6 solve 5 k ts (component_of values j) (nth j v0 0) (nth j a0 0) (nth j vT 0) (nth j aT 0)
      Hs (valid_component _ _ _ j Hv) ltac:(auto)) as (k2 & E2 & [A2 _] & B2 & _ & C2).
    rewrite B in E2. injection E2 as <-. auto. }
  split.
  { destruct ks' as [|k1 ks']; [cbn in L; destruct (vc_containers vc); cbn in L; congruence|].
    unfold vc_get_max_time. cbn [vc_containers]. f_equal. apply (Hall6 0%nat k1 eq_refl). }
  split.
  { intros i Hi. unfold vc_evaluate. cbn [vc_containers].
    rewrite (for_each_ok _ _ (fun j => nth j (nth i values []) 0)).
    - cbn [bind]. rewrite seq_components; [reflexivity|]. rewrite L. rewrite Forall_forall in Hall. apply Hall, nth_In. lia.
    - intros j k Ej. destruct (Hall6 j k Ej) as [A _]. rewrite (A i Hi). f_equal. unfold component_of.
      rewrite (nth_indep _ 0 (nth j [] 0)) by (rewrite map_length; lia).
      apply (map_nth (fun v => nth j v 0)). }
  intros old. unfold vc_evaluate_derivative. cbn [vc_containers Z.eqb Pos.eqb].
  change (nth (length ts - 1) ts 0 - nth 0 ts 0) with (duration_of ts).
  rewrite (for_each_ok (fun k => get_velocity_at_time 5 k 0) _ (fun j => nth j v0 0)) by (intros; now apply Hall6).
  rewrite (for_each_ok (fun k => get_acceleration_at_time 5 k 0) _ (fun j => nth j a0 0)) by (intros; now apply Hall6).
  rewrite (for_each_ok (fun k => get_velocity_at_time 5 k (duration_of ts)) _ (fun j => nth j vT 0)) by (intros; now apply Hall6).
  rewrite (for_each_ok (fun k => get_acceleration_at_time 5 k (duration_of ts)) _ (fun j => nth j aT 0)) by (intros; now apply Hall6).
  cbn [bind]. rewrite !seq_components by lia. repeat split.
Qed.

(** When time starts at zero this is what one expects. *)
Theorem C33_time_from_zero : forall (solve : solver R) vc times values v0 a0 vT aT,
  exact_solver solve -> vc_containers vc <> [] -> valid_vectors (length (vc_containers vc)) times values ->
  length v0 = length (vc_containers vc) -> length a0 = length (vc_containers vc) ->
  length vT = length (vc_containers vc) -> length aT = length (vc_containers vc) ->
  nth 0 times 0 = 0 ->
  exists vc', vc_fit_boundary solve vc times values v0 a0 vT aT = Ok vc' /\
    vc_get_min_time vc' = nth 0 times 0 /\
    vc_get_max_time vc' = Ok (nth (length times - 1) times 0) /\
    (forall i, (i < length times)%nat -> vc_evaluate vc' (nth i times 0) = Ok (true, nth i values [])).
Proof.
  intros solve vc times values v0 a0 vT aT Hs Hn Hv L1 L2 L3 L4 E0.
  destruct (C33_relative_time solve vc times values v0 a0 vT aT Hs Hn Hv L1 L2 L3 L4) as (vc' & E & A & B & C & _).
  exists vc'. rewrite E0, Rminus_0_r in *. split; [exact E|]. split; [exact A|]. split; [exact B|].
  intros i Hi. rewrite <- (C i Hi). f_equal. ring.
Qed.

(** For any other first time the reported maximum time is not the last time, and the
    last value is not reached at the last time when time starts late (unless the
    trajectory happens to be there). *)
Theorem C33_max_time_wrong : forall (solve : solver R) vc times values v0 a0 vT aT vc',
  exact_solver solve -> vc_containers vc <> [] -> valid_vectors (length (vc_containers vc)) times values ->
  length v0 = length (vc_containers vc) -> length a0 = length (vc_containers vc) ->
  length vT = length (vc_containers vc) -> length aT = length (vc_containers vc) ->
  nth 0 times 0 <> 0 ->
  vc_fit_boundary solve vc times values v0 a0 vT aT = Ok vc' ->
  vc_get_max_time vc' <> Ok (nth (length times - 1) times 0).
Proof.
  intros solve vc times values v0 a0 vT aT vc' Hs Hn Hv L1 L2 L3 L4 E0 E.
  destruct (C33_relative_time solve vc times values v0 a0 vT aT Hs Hn Hv L1 L2 L3 L4) as (vc2 & E2 & A & B & _).
  rewrite E in E2. injection E2 as <-. rewrite B. intros F. injection F as F. lra.
Qed.

Lemma valid_two a b x y : a < b -> valid_vectors 1 [a; b] [[x]; [y]].
Proof.
  intros Hab. split; [cbn; lia|]. split; [|split; [reflexivity|split; [reflexivity|repeat constructor]]].
  intros [|i] Hi; cbn in *; [exact Hab|lia].
Qed.

Theorem C33_passes_through_refuted :
  ~ (forall (solve : solver R) vc times values vc' i,
       exact_solver solve -> vc_containers vc <> [] -> valid_vectors (length (vc_containers vc)) times values ->
       vc_fit solve vc times values = Ok vc' -> (i < length times)%nat ->
       vc_evaluate vc' (nth i times 0) = Ok (true, nth i values [])).
Proof.
  intros H.
  assert (Hv := valid_two 1 2 0 1 ltac:(lra)).
  destruct (C33_relative_time gauss (vc_new 1) [1; 2] [[0]; [1]] [0] [0] [0] [0] gauss_exact ltac:(discriminate) Hv
    eq_refl eq_refl eq_refl eq_refl) as (vc' & E & _ & _ & C & _).
  pose proof (H gauss (vc_new 1) [1; 2] [[0]; [1]] vc' 0%nat gauss_exact ltac:(discriminate) Hv E ltac:(cbn; lia)) as F.
  specialize (C 1%nat ltac:(cbn; lia)). cbn [nth] in C, F. replace (2 - 1) with 1 in C by ring.
  rewrite C in F. injection F as F. lra.
Qed.

(** clear keeps the old minimum time. *)
Theorem C33_clear_keeps_min_time : forall (vc : vector_curve R),
  vc_get_min_time (vc_clear vc) = vc_get_min_time vc /\
  (vc_containers vc <> [] -> vc_get_max_time (vc_clear vc) = Ok 0).
Proof.
  intros vc. split; [reflexivity|]. intros H. unfold vc_get_max_time, vc_clear. cbn [vc_containers].
  destruct (vc_containers vc); [congruence|reflexivity].
Qed.

(** Too few values raise an exception. *)
Lemma component_throws n i : (i < n)%nat -> forall values m, Forall (fun v => length v = n) values ->
  (length values < m)%nat -> component values i m = @Throw (list R).
Proof.
  intros Hi values. induction values as [|v values IH]; intros m Hall Hm; destruct m as [|m]; cbn in Hm; try lia; [reflexivity|].
  inversion Hall; subst. cbn [component]. rewrite entry_nth by lia. cbn [bind]. now rewrite IH by (auto; lia).
Qed.

Theorem C33_too_few_values : forall (solve : solver R) vc times values v0 a0 vT aT,
  vc_containers vc <> [] -> Forall (fun v => length v = length (vc_containers vc)) values ->
  (length values < length times)%nat ->
  vc_fit_boundary solve vc times values v0 a0 vT aT = Throw.
Proof.
  intros solve vc times values v0 a0 vT aT Hn Hall Hlt. unfold vc_fit_boundary.
  destruct times as [|t0 times]; [cbn in Hlt; lia|]. cbn [vec_front bind].
  destruct (vc_containers vc) as [|k ks] eqn:Ek; [congruence|]. cbn [vc_fit_loop].
  rewrite (component_throws (length (k :: ks))) by (auto; cbn; lia). reflexivity.
Qed.

(** The overload with lists of derivatives uses the first and the last of them. *)
Theorem C33_derivative_lists : forall (solve : solver R) vc times values first second,
  vc_containers vc <> [] -> valid_vectors (length (vc_containers vc)) times values ->
  valid_vectors (length (vc_containers vc)) times first ->
  valid_vectors (length (vc_containers vc)) times second ->
  vc_fit_derivatives solve vc times values first second =
  vc_fit_boundary solve vc times values (nth 0 first []) (nth 0 second [])
    (nth (length times - 1) first []) (nth (length times - 1) second []).
Proof.
  intros solve vc times values first second Hn Hv Hf Hg. unfold vc_fit_derivatives, vc_fit_boundary.
  destruct times as [|t0 times']; [reflexivity|]. set (times := t0 :: times') in *. cbn [vec_front bind].
  assert (Hloop : forall ks i, (i + length ks = length (vc_containers vc))%nat ->
    vc_fit_derivatives_loop solve times values first second i ks =
    vc_fit_loop solve times values (nth 0 first []) (nth 0 second [])
      (nth (length times - 1) first []) (nth (length times - 1) second []) i ks).
  { induction ks as [|k ks IH]; intros i Hi; [reflexivity|]. cbn [length] in Hi.
    cbn [vc_fit_derivatives_loop vc_fit_loop].
    destruct Hv as (Hlen & _ & Lv & _ & Hallv). destruct Hf as (_ & _ & Lf & _ & Hallf). destruct Hg as (_ & _ & Lg & _ & Hallg).
    assert (Hc : forall l, length l = length times -> Forall (fun v => length v = length (vc_containers vc)) l ->
      component l i (length times) = Ok (component_of l i)).
    { intros l Ll Hl. rewrite <- Ll. apply (component_ok (length (vc_containers vc))); auto. lia. }
    rewrite !Hc by auto. cbn [bind].
    assert (Hent : forall l j, length l = length times -> Forall (fun v => length v = length (vc_containers vc)) l ->
      (j < length times)%nat -> entry (nth j l []) i = Ok (nth j (component_of l i) 0)).
    { intros l j Ll Hl Hj. rewrite entry_nth.
      - f_equal. unfold component_of. rewrite (nth_indep (map (fun v => nth i v 0) l) 0 (nth i [] 0)) by (rewrite map_length; lia).
        symmetry. apply (map_nth (fun v => nth i v 0)).
      - rewrite Forall_forall in Hl. rewrite Hl by (apply nth_In; lia). lia. }
    assert (Hfr : forall l, length l = length times -> Forall (fun v => length v = length (vc_containers vc)) l ->
      vec_front (component_of l i) = entry (nth 0 l []) i).
    { intros l Ll Hl. rewrite Hent by (auto; lia). destruct l; [cbn in Ll; cbn in Hlen; lia|reflexivity]. }
    assert (Hbk : forall l, length l = length times -> Forall (fun v => length v = length (vc_containers vc)) l ->
      vec_back (component_of l i) = entry (nth (length times - 1) l []) i).
    { intros l Ll Hl. rewrite Hent by (auto; lia). apply vec_back_nth. rewrite component_length. lia. }
    rewrite !Hfr, !Hbk by auto.
    rewrite IH by lia. reflexivity. }
  now rewrite Hloop by reflexivity.
Qed.

(** ** Examples *)

Example C31_example : exact_solver gauss /\ valid_knots [1; 2; 4] [2; 0; 5].
Proof.
  split; [exact gauss_exact|]. split; [cbn; lia|]. split; [|split; reflexivity].
  intros [|[|i]] L; cbn in *; try lra. lia.
Qed.

Example C33_example : vc_containers (vc_new (S:=R) 1) <> [] /\
  valid_vectors (length (vc_containers (vc_new (S:=R) 1))) [0; 2] [[3]; [4]].
Proof. split; [discriminate|]. apply valid_two. lra. Qed.

Print Assumptions C31_passes_through.
Print Assumptions C31_default.
Print Assumptions C31_boundary.
Print Assumptions C31_smooth.
Print Assumptions C31_shift.
Print Assumptions C31_orders.
Print Assumptions C32_silent_failure.
Print Assumptions C32_replaces.
Print Assumptions C32_option_list_appends.
Print Assumptions C32_option_list_clears_refuted.
Print Assumptions C33_relative_time.
Print Assumptions C33_time_from_zero.
Print Assumptions C33_max_time_wrong.
Print Assumptions C33_passes_through_refuted.
Print Assumptions C33_clear_keeps_min_time.
Print Assumptions C33_too_few_values.
Print Assumptions C33_derivative_lists.
