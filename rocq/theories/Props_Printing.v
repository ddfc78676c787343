(** * C97: printed spline, Hermite and composition curves *)

From Coquelicot Require Import Coquelicot.
From Coq Require Import List Reals Lra Lia Bool Arith NArith ZArith.
From Flocq Require Import IEEE754.BinarySingleNaN.
From Verif Require Import Base TimeOrder TimeInst KeyGen Manager ManagerSpec ManagerProofs ManagerProofs2 ManagerProofs3 Num Spline SplineSpec LinSpec SplineProofs
  Container ContainerSpec ContainerProofs SetDataSpec SetDataProofs SetDataExist SetDataTraj SetDataTop
  Props_Container Props_SetData SplineCurves Props_SplineCurves HermiteE3 HermiteE3Proofs Quat HermiteSE3 Sampling SamplingSpec SamplingProofs NumB64 TimeB64 Discrete DiscreteSpec
  DiscreteProofs Composition CompositionProofs Props_Composition SlerpSE3 Props_Manager Props_Discrete Props_SlerpSE3 Printing.
Import ListNotations.
Local Open Scope R_scope.

(** ** The scalar spline curve *)

(** A row shows what the curve is at its time. *)
Definition shows (o : nat) (c : scalar_curve R) (w : row R) : Prop :=
  sc_evaluate o c (w_time w) = Ok (true, w_value w) /\
  forall old, sc_evaluate_derivative o c old (w_time w) 1 = Ok (true, w_first w) /\
              sc_evaluate_derivative o c old (w_time w) 2 = Ok (true, w_second w).

Lemma print_loop_ok o (c : scalar_curve R) dt : countable_splines (c_splines (sc_container c)) -> forall n t,
  exists rows, sc_print_loop o c dt n t = Ok rows /\ length rows = n /\ Forall (shows o c) rows /\
    map w_time rows = map (fun i => t + INR i * dt) (seq 0 n).
Proof.
  intros Hc. induction n as [|n IH]; intros t; [exists []; repeat split; constructor|].
  cbn [sc_print_loop]. unfold sc_evaluate at 1, sc_evaluate_derivative at 1 2. cbn [Z.eqb Pos.eqb].
  unfold get_position_at_time, get_velocity_at_time, get_acceleration_at_time.
  destruct (get_at_total (position_at o) (sc_container c) (t - sc_min c) Hc) as (x & Ex).
  destruct (get_at_total (velocity_at o) (sc_container c) (t - sc_min c) Hc) as (x1 & Ex1).
  destruct (get_at_total (acceleration_at o) (sc_container c) (t - sc_min c) Hc) as (x2 & Ex2).
  destruct (IH (t + dt)) as (rows & E & L & F & Et).
  numR. rewrite Ex, Ex1, Ex2. cbn [bind snd]. change (nadd t dt) with (t + dt). rewrite E. cbn [bind]. eexists. split; [reflexivity|].
  split; [simpl; congruence|]. split.
  - constructor; [|exact F]. split; cbn [w_time w_value w_first w_second].
    + unfold sc_evaluate, get_position_at_time. numR. now rewrite Ex.
    + intros old. unfold sc_evaluate_derivative, get_velocity_at_time, get_acceleration_at_time. cbn [Z.eqb Pos.eqb]. numR.
      now rewrite Ex1, Ex2.
  - cbn [map w_time seq]. rewrite Et. f_equal; [simpl; ring|]. rewrite <- seq_shift, map_map. apply map_ext.
    intros i. rewrite S_INR. ring.
Qed.

(** Fifteen rows at equal steps from the first to the last time. *)
Theorem C97_scalar : forall o (c : scalar_curve R), countable_splines (c_splines (sc_container c)) ->
  exists rows, sc_print o c = Ok rows /\ length rows = 15%nat /\ Forall (shows o c) rows /\
    forall i w, nth_error rows i = Some w ->
      w_time w = sc_get_min_time c + INR i / 14 * (sc_get_max_time c - sc_get_min_time c).
Proof.
  intros o c Hc. unfold sc_print.
  destruct (print_loop_ok o c ((sc_get_max_time c - sc_get_min_time c) / 14) Hc 15 (sc_get_min_time c)) as (rows & E & L & F & Et).
  exists rows. split; [exact E|]. split; [exact L|]. split; [exact F|]. intros i w Hi.
  assert (Li : (i < 15)%nat) by (rewrite <- L; apply nth_error_Some; congruence).
  pose proof (map_nth_error w_time _ _ Hi) as X. rewrite Et in X.
  rewrite (map_nth_error _ i (seq 0 15) (d := i)) in X by (rewrite nth_error_nth' with (d := 0%nat); [now rewrite seq_nth|now rewrite seq_length]).
  assert (X' : w_time w = sc_get_min_time c + INR i * ((sc_get_max_time c - sc_get_min_time c) / 14)) by congruence.
  rewrite X'. field.
Qed.

(** After a fit with boundary values the first and the last row show the given data. *)
Theorem C97_scalar_fitted : forall (solve : solver R) sc times values v0 a0 vT aT,
  exact_solver solve -> valid_knots times values ->
  exists sc' rows, sc_fit_boundary solve 5 sc times values v0 a0 vT aT = Ok sc' /\ sc_print 5 sc' = Ok rows /\
    nth_error rows 0 = Some (Row (nth 0 times 0) (nth 0 values 0) v0 a0) /\
    nth_error rows 14 = Some (Row (nth (length times - 1) times 0) (nth (length times - 1) values 0) vT aT) /\
    nth_error rows 15 = None.
Proof.
  intros solve sc times values v0 a0 vT aT Hs Hv.
  destruct (C31_passes_through solve 5 sc times values v0 a0 vT aT Hs ltac:(lia) Hv) as (sc' & E & Emin & Emax & _ & _ & Hlo & Hhi).
  destruct (C31_boundary solve sc times values v0 a0 vT aT Hs Hv) as (sc'' & E' & Hb). rewrite E in E'. injection E' as <-.
  destruct (result6 solve 5 (sc_container sc) times values v0 a0 vT aT Hs Hv (or_introl eq_refl)) as (c' & Ec & [_ (_ & _ & Hcs & _)] & _).
  rewrite (fit_container _ _ _ _ _ _ _ _ _ true c' (valid_nonempty _ _ Hv) Ec) in E.
  assert (Es : sc' = mkScalar c' (nth 0 times 0)) by congruence.
  destruct (C97_scalar 5 sc') as (rows & Er & Lr & Fr & Tr); [now rewrite Es|].
  exists sc', rows. split; [rewrite Es; now apply (fit_container _ _ _ _ _ _ _ _ _ true), Ec; apply (valid_nonempty _ _ Hv)|].
  split; [exact Er|]. rewrite Forall_forall in Fr.
  assert (X : forall i t p v a, (i < 15)%nat -> t = sc_get_min_time sc' + INR i / 14 * (sc_get_max_time sc' - sc_get_min_time sc') ->
    sc_evaluate 5 sc' t = Ok (true, p) -> sc_evaluate_derivative 5 sc' 0 t 1 = Ok (true, v) ->
    sc_evaluate_derivative 5 sc' 0 t 2 = Ok (true, a) -> nth_error rows i = Some (Row t p v a)).
  { intros i t p v a Hi Et Ep Ev Ea. destruct (nth_error rows i) as [[t' p' v' a']|] eqn:En; [|apply nth_error_None in En; lia].
    pose proof (Tr i _ En) as T. cbn [w_time] in T. destruct (Fr _ (nth_error_In _ _ En)) as [P D].
    destruct (D 0) as [D1 D2]. cbn [w_time w_value w_first w_second] in P, D1, D2. rewrite <- Et in T. subst t'.
    rewrite Ep in P. rewrite Ev in D1. rewrite Ea in D2. congruence. }
  destruct (Hb 0) as (B1 & B2 & B3 & B4). split; [|split].
  - apply X; [lia|rewrite Emin; simpl; lra|apply Hlo; lra|rewrite <- Emin; exact B1|rewrite <- Emin; exact B2].
  - apply X; [lia|rewrite Emin, Emax; simpl; lra|apply Hhi; lra|rewrite <- Emax; exact B3|rewrite <- Emax; exact B4].
  - apply nth_error_None. lia.
Qed.

(** In double precision the last row need not be at the last time: fourteen times the
    fourteenth part of one second is less than one second. *)
Definition unit_curve : scalar_curve b64 :=
  mkScalar (add_spline c_new (spline_of (repeat (nofZ 0 : b64) 6) (nofZ 1))) (nofZ 0).

Theorem C97_last_row_refuted : exists (c : scalar_curve b64) rows w,
  sc_print 5 c = Ok rows /\ nth_error rows 14 = Some w /\ nltb (w_time w) (sc_get_max_time c) = true /\
  sc_get_max_time c = nofZ 1.
Proof.
  exists unit_curve.
  assert (X : match sc_print 5 unit_curve with
              | Ok rows => match nth_error rows 14 with Some w => nltb (w_time w) (sc_get_max_time unit_curve) | None => false end
              | _ => false end = true) by (vm_compute; reflexivity).
  destruct (sc_print 5 unit_curve) as [rows| | |]; try discriminate.
  destruct (nth_error rows 14) as [w|] eqn:En; [|discriminate].
  exists rows, w. split; [reflexivity|]. split; [exact En|]. split; [exact X|].
  apply B2SF_inj. vm_compute. reflexivity.
Qed.

(** ** The Hermite curves *)

Lemma lines_of_nodes {C L} (m : mgr R C) (shown : N -> C -> R -> L) : consistent m ->
  lines_of m shown = Ok (map (fun n => shown (n_key n) (n_coef n) (n_time n)) (nodes m)).
Proof.
  intros Hc. unfold lines_of, get_keys, get_times.
  assert (Hk : forall n, In n (nodes m) -> get_coefficient_by_key m (n_key n) = Ok (n_coef n)).
  { intros n Hi. now apply get_by_key_ok. }
  assert (Y : forall l : list (node R C), (forall n, In n l -> get_coefficient_by_key m (n_key n) = Ok (n_coef n)) ->
    mapM (fun kt : N * R => let* v := get_coefficient_by_key m (fst kt) in Ok (shown (fst kt) v (snd kt)))
      (combine (map n_key l) (map n_time l)) = Ok (map (fun n => shown (n_key n) (n_coef n) (n_time n)) l)); [|now apply Y].
  clear Hk. induction l as [|n l IH]; intros Hk; [reflexivity|].
  cbn [map combine mapM fst snd]. rewrite Hk by now left. cbn [bind]. rewrite IH by (intros; apply Hk; now right). reflexivity.
Qed.

(** The E3 curve: number of coefficients, range, and the positions in time order with
    their keys and times; the derivatives are not shown. *)
Theorem C97_hermite_e3 : forall c : e3_curve R, consistent c ->
  exists r, e3_print c = Ok r /\ hr_count r = length (contents c) /\
    map (fun l => fst (fst l)) (hr_lines r) = get_keys c /\
    map (fun l => (snd l, snd (fst l))) (hr_lines r) = map (fun x => (fst x, k_pos (snd x))) (contents c) /\
    (forall t v, In (t, v) (contents c) -> hr_first r <= t <= hr_last r) /\
    (contents c <> [] -> In (hr_first r) (get_times c) /\ In (hr_last r) (get_times c)).
Proof.
  intros c Hc. unfold e3_print. rewrite lines_of_nodes by exact Hc. cbn [bind]. eexists. split; [reflexivity|].
  cbn [hr_count hr_lines hr_first hr_last].
  split; [unfold size, contents; now rewrite map_length|].
  split; [rewrite map_map; reflexivity|]. split; [unfold contents; rewrite !map_map; reflexivity|].
  split; [intros t v Hi; now apply (contents_bounds c t v)|]. intros Hn.
  assert (Hs : spans (get_times c) (min_time c) (max_time c)).
  { apply (range_spans c); auto.
    - rewrite <- contents_times. destruct (contents c); [congruence|discriminate].
    - intros t. rewrite <- contents_times, in_map_iff. split; [intros ([t' v] & <- & Hi); simpl; eauto|].
      intros (v & Hi). exists (t, v). auto. }
  split; apply Hs.
Qed.

(** The SE3 curve never shows a coefficient: two curves of the same size and range print
    the same. *)
Theorem C97_hermite_se3 : forall c : se3_curve R, consistent (h_mgr c) ->
  exists r, se3_print c = Ok r /\ hr_count r = length (contents (h_mgr c)) /\ hr_first r = se3_min_time c /\
    hr_last r = se3_max_time c /\ hr_lines r = [].
Proof.
  intros c Hc. unfold se3_print. rewrite lines_of_nodes by exact Hc. cbn [bind]. eexists. split; [reflexivity|].
  cbn [hr_count hr_lines hr_first hr_last]. unfold size, contents. rewrite map_length. repeat split.
Qed.

(** ** The composition curve *)

(** Composed of two discrete curves it prints both, unless one of them is empty. *)
Theorem C97_composition_discrete : forall {V} (dist : V -> V -> R) mb mc (c : comp R V),
  starts mb -> starts mc -> consistent (s_mgr (c_base c)) -> consistent (s_mgr (c_corr c)) ->
  let out := comp_print (disc_print (pw_evaluate mb) dist) (disc_print (pw_evaluate mc) dist) c in
  (contents (s_mgr (c_base c)) = [] \/ contents (s_mgr (c_corr c)) = [] -> out = UB) /\
  (contents (s_mgr (c_base c)) <> [] -> contents (s_mgr (c_corr c)) <> [] ->
     exists rb rk, out = Ok (rb, rk) /\
       map (fun l => (snd l, snd (fst l))) (r_lines rb) = contents (s_mgr (c_base c)) /\
       map (fun l => (snd l, snd (fst l))) (r_lines rk) = contents (s_mgr (c_corr c))).
Proof.
  intros V dist mb mc c Sb Sc Hb Hk out. unfold out, comp_print.
  destruct (C86_discrete dist mb (c_base c) Sb Hb) as [B0 B1].
  destruct (C86_discrete dist mc (c_corr c) Sc Hk) as [K0 K1].
  assert (L : forall m : mgr R V, size m = length (contents m)) by (intros m; unfold size, contents; now rewrite map_length).
  rewrite L in B0, B1, K0, K1. split.
  - destruct (contents (s_mgr (c_base c))) as [|x l]; [intros _; now rewrite B0|]. intros [X|X]; [discriminate|].
    destruct B1 as (rb & -> & _); [simpl; lia|]. cbn [bind]. rewrite K0 by now rewrite X. reflexivity.
  - intros Nb Nk. destruct B1 as (rb & -> & _ & Eb & _); [destruct (contents (s_mgr (c_base c))); [congruence|simpl; lia]|].
    destruct K1 as (rk & -> & _ & Ek & _); [destruct (contents (s_mgr (c_corr c))); [congruence|simpl; lia]|].
    exists rb, rk. auto.
Qed.

(** Composed of two slerp curves it prints single coefficients only. *)
Theorem C97_composition_slerp : forall {V} (dist : V -> V -> R) (c : comp R V),
  let out := comp_print (slerp_print slerp_evaluate dist) (slerp_print slerp_evaluate dist) c in
  ((exists r, out = Ok r) <-> length (contents (s_mgr (c_base c))) = 1%nat /\ length (contents (s_mgr (c_corr c))) = 1%nat) /\
  (contents (s_mgr (c_base c)) = [] -> out = UB).
Proof.
  intros V dist c out. unfold out, comp_print.
  assert (X : forall k : @slerp_curve R V, (exists r, slerp_print slerp_evaluate dist k = Ok r) <-> length (contents (s_mgr k)) = 1%nat).
  { intros k. destruct (C86_slerp dist k) as (A & B & C). unfold size in *.
    assert (L : length (nodes (s_mgr k)) = length (contents (s_mgr k))) by (unfold contents; now rewrite map_length).
    rewrite L in *. destruct (contents (s_mgr k)) as [|[t v] [|y l]]; cbn [length] in *.
    - rewrite A by reflexivity. split; [intros [r ?]; discriminate|discriminate].
    - destruct (C t v eq_refl) as (r & -> & _). split; eauto.
    - rewrite B by lia. split; [intros [r ?]; discriminate|discriminate]. }
  split.
  - rewrite <- !X. split.
    + intros [r E]. destruct (slerp_print slerp_evaluate dist (c_base c)) as [b| | |]; try discriminate. cbn [bind] in E.
      destruct (slerp_print slerp_evaluate dist (c_corr c)) as [k| | |]; try discriminate. eauto.
    + intros [[b ->] [k ->]]. cbn [bind]. eauto.
  - intros E. destruct (C86_slerp dist (c_base c)) as (A & _). rewrite A; [reflexivity|]. unfold size.
    apply (f_equal (@length _)) in E. unfold contents in E. now rewrite map_length in E.
Qed.

(** ** Examples *)

Example C97_example : exists (c k : @slerp_curve R R) (d : comp R R) (e : e3_curve R) (sc : scalar_curve R),
  consistent (s_mgr c) /\ consistent (s_mgr k) /\ d = Comp c k /\ contents (s_mgr c) = [(0, 1); (1, 2)] /\
  contents (s_mgr k) = [(0, 5)] /\ starts (nearer (V := R)) /\ consistent e /\ contents e = [] /\
  countable_splines (c_splines (sc_container sc)) /\ c_splines (sc_container sc) <> [] /\
  exact_solver gauss /\ valid_knots [0; 1] [2; 0].
Proof.
  destruct (curve_exists [(0, 1); (1, 2)] policy_default) as (g & c & _ & [Hc _] & Ec & _); [apply two_increasing; lra|reflexivity|].
  destruct (curve_exists [(0, 5)] policy_default) as (g' & k & _ & [Hk _] & Ek & _); [constructor; constructor|reflexivity|].
  exists c, k, (Comp c k), e3_new, (mkScalar (add_spline c_new (spline_of [0; 0; 0; 0; 0; 7] 1)) 0).
  repeat match goal with |- _ /\ _ => split end; auto; try reflexivity.
  - apply nearer_starts.
  - apply consistent_empty.
  - discriminate.
  - apply gauss_exact.
  - apply valid_example_two.
Qed.
