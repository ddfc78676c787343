(** * C126: fitting inaccurate orientations of a body that turns at bounded speed *)

From Coquelicot Require Import Coquelicot.
From Coq Require Import List Bool Arith NArith ZArith Reals Lra Lia Psatz.
From Verif Require Import Base TimeOrder TimeInst KeyGen Manager ManagerSpec ManagerProofs ManagerProofs3 Num Sampling HermiteE3 HermiteSpec HermiteE3Proofs
  Props_HermiteE3 Props_Hermite2 Quat QuatSpec QuatProofs QuatLog QuatDist HermiteSE3 HermiteSE3Spec HermiteSE3Proofs HermiteSE3Curve HermiteSE3Motion
  Props_HermiteSE3 Props_HalfTurn Props_Speed Props_Sampled Props_Tracking.
Import ListNotations.
Local Open Scope R_scope.

Lemma nth_combine_in {A B} (ts : list A) (vs : list B) i t v : nth_error ts i = Some t -> nth_error vs i = Some v -> In (t, v) (combine ts vs).
Proof.
  revert vs i. induction ts as [|s ts IH]; intros [|w vs] [|i] Et Ev; try discriminate; cbn in *; [left; congruence|right; now apply (IH vs i)].
Qed.

(** Two orientations that were measured with errors of at most [e], and a third one near to both. *)
Lemma near_measured K W e ta tb (ka kb : pose R * twist R) t Q : exact_kindr K -> shortest K -> ta < tb -> ta <= t <= tb -> 0 <= W -> 0 <= e ->
  unit_quat (p_rot (fst ka)) -> unit_quat (p_rot (fst kb)) -> unit_quat Q ->
  vnorm (t_ang (snd ka)) <= W + 2 * e / (tb - ta) -> vnorm (t_ang (snd kb)) <= W + 2 * e / (tb - ta) ->
  angle (p_rot (fst ka)) (p_rot (fst kb)) <= W * (tb - ta) + 2 * e ->
  angle (p_rot (fst ka)) Q <= W * (t - ta) + e -> angle (p_rot (fst kb)) Q <= W * (tb - t) + e ->
  angle (se3_segment_rotation K ta tb ka kb t) Q <= 5 / 3 * W * (tb - ta) + 10 / 3 * e.
Proof.
  intros HK HS L Ht PW Pe Ua Ub UQ Wa Wb Wm Qa Qb.
  set (W' := W + 2 * e / (tb - ta)) in *. assert (EW : W' * (tb - ta) = W * (tb - ta) + 2 * e) by (unfold W'; field; lra).
  rewrite <- EW in Wm.
  set (y := (t - ta) / (tb - ta)). assert (Y : 0 <= y <= 1) by (apply fraction_bounds; lra).
  assert (Ea : t - ta = y * (tb - ta)) by (unfold y; field; lra). assert (Eb : tb - t = (1 - y) * (tb - ta)) by (unfold y; field; lra).
  assert (Ut : forall s, unit_quat (se3_segment_rotation K ta tb ka kb s)) by (intros s; now apply rot_unit).
  assert (PWH : 0 <= W * (tb - ta)) by (apply Rmult_le_pos; lra). rewrite Ea in Qa. rewrite Eb in Qb.
  destruct (Rle_lt_dec y (/ 2)) as [Hy|Hy].
  - pose proof (turn_paced K W' ta tb ka kb ta t HK HS L ltac:(lra) ltac:(lra) Ua Ub Wa Wb Wm) as T. cbv zeta in T. fold y in T.
    rewrite (rot_start K HK ta tb ka kb L) in T. replace ((ta - ta) / (tb - ta)) with 0 in T by (field; lra).
    pose proof (angle_triangle _ (p_rot (fst ka)) Q (Ut t) Ua UQ) as Tr. rewrite (angle_sym (se3_segment_rotation K ta tb ka kb t) (p_rot (fst ka))) in Tr.
    change (qA ka) with (p_rot (fst ka)) in T. replace (f2 0) with 0 in T by (unfold f2; ring). rewrite EW in T.
    assert (F : y - 0 + 4 / 3 * (f2 y - 0) <= 7 / 6).
    { destruct (f_mono y (/ 2) ltac:(lra) ltac:(lra)) as (_ & F & _). unfold f2 in *. lra. }
    pose proof (Rmult_le_compat_r (W * (tb - ta) + 2 * e) _ _ ltac:(lra) F) as T2.
    pose proof (Rmult_le_compat_r _ _ _ PWH Hy) as T3. lra.
  - pose proof (turn_paced K W' ta tb ka kb t tb HK HS L ltac:(lra) ltac:(lra) Ua Ub Wa Wb Wm) as T. cbv zeta in T. fold y in T.
    rewrite (angle_same _ _ _ (rot_end K HK ta tb ka kb L Ua Ub)) in T. replace ((tb - ta) / (tb - ta)) with 1 in T by (field; lra).
    pose proof (angle_triangle _ (p_rot (fst kb)) Q (Ut t) Ub UQ) as Tr. change (qA kb) with (p_rot (fst kb)) in T. rewrite EW in T.
    assert (F : 1 - y + 4 / 3 * (f2 1 - f2 y) <= 7 / 6).
    { destruct (f_mono (/ 2) y ltac:(lra) ltac:(lra)) as (_ & F & _). unfold f2 in *. lra. }
    pose proof (Rmult_le_compat_r (W * (tb - ta) + 2 * e) _ _ ltac:(lra) F) as T2.
    pose proof (Rmult_le_compat_r (W * (tb - ta)) (1 - y) (/ 2) PWH ltac:(lra)) as T3. lra.
Qed.

(** The body has the orientation [q t] at time [t] and turns by at most [W] per second; the orientations of the poses [vs] are within
    [e] of it and their times at most [h] apart; the angular velocities given for the ends are at most [W]. *)
Theorem C126_fit : forall K g (c : se3_curve R) W h e q ts vs d0 d1 out,
  exact_kindr K -> shortest K -> length ts = length vs -> (2 <= length ts)%nat -> increasing_times ts -> (g + N.of_nat (length ts) < 2 ^ 64)%N ->
  (forall t, unit_quat (q t)) -> (forall v, In v vs -> unit_quat (p_rot v)) -> 0 <= e ->
  turns W q (at_knot ts 0) (at_knot ts (length ts - 1)) -> (forall t v, In (t, v) (combine ts vs) -> angle (p_rot v) (q t) <= e) -> gaps h ts ->
  vnorm (t_ang d0) <= W -> vnorm (t_ang d1) <= W ->
  exists g' c' ks, se3_fit_with_derivatives K g c ts vs d0 d1 out = Ok (g', c', ks) /\
    forall t, at_knot ts 0 <= t <= at_knot ts (length ts - 1) ->
      exists p, se3_evaluate K c' t = Ok (Some p) /\ angle (p_rot p) (q t) <= 5 / 3 * W * h + 10 / 3 * e.
Proof.
  intros K g c W h e q ts vs d0 d1 out HK HS Hl H2 Hi Hg Hq Hu Pe Ht Hm Hh E0 E1.
  assert (PW : 0 <= W) by (pose proof (vnorm_pos (t_ang d0)); lra).
  assert (Hr : forall i, (i < length ts)%nat -> at_knot ts 0 <= at_knot ts i <= at_knot ts (length ts - 1)) by (intros i Li; now apply in_range).
  assert (Hn : forall i, (i < length ts)%nat -> exists v, nth_error ts i = Some (at_knot ts i) /\ nth_error vs i = Some v /\ unit_quat (p_rot v) /\
    angle (p_rot v) (q (at_knot ts i)) <= e).
  { intros i Li. destruct (nth_error vs i) as [v|] eqn:Ev; [|apply nth_error_None in Ev; lia].
    assert (Et : nth_error ts i = Some (at_knot ts i)) by (now apply nth_error_nth').
    exists v. split; [exact Et|]. split; [reflexivity|]. split; [apply Hu; now apply nth_error_In in Ev|].
    apply Hm. now apply (nth_combine_in _ _ i). }
  assert (Two : forall i j v w, (i < j < length ts)%nat -> nth_error vs i = Some v -> nth_error vs j = Some w -> at_knot ts i < at_knot ts j ->
    angle (p_rot v) (p_rot w) <= W * (at_knot ts j - at_knot ts i) + 2 * e).
  { intros i j v w Lij Ev Ew Lt. destruct (Hn i ltac:(lia)) as (v' & _ & Ev' & Uv & Mv). destruct (Hn j ltac:(lia)) as (w' & _ & Ew' & Uw & Mw).
    assert (v' = v) by congruence. assert (w' = w) by congruence. subst v' w'.
    pose proof (angle_triangle _ (q (at_knot ts i)) (p_rot w) Uv (Hq _) Uw) as T1.
    pose proof (angle_triangle _ (q (at_knot ts j)) (p_rot w) (Hq (at_knot ts i)) (Hq _) Uw) as T2.
    rewrite (angle_sym (q (at_knot ts j)) (p_rot w)) in T2.
    pose proof (Ht (at_knot ts i) (at_knot ts j) (Hr i ltac:(lia)) (Hr j ltac:(lia))) as T3. rewrite Rabs_left1 in T3 by lra. lra. }
  assert (G : forall i, (i < length ts)%nat ->
    (vnorm (t_ang (se3_knot_twist K ts vs d0 d1 i)) <= W) \/
    (exists j, i = S j /\ (S (S j) < length ts)%nat /\
      vnorm (t_ang (se3_knot_twist K ts vs d0 d1 i)) <= W + 2 * e / (at_knot ts (S (S j)) - at_knot ts j))).
  { intros i Li. unfold se3_knot_twist. destruct i as [|i]; [now left|].
    destruct (Hn i ltac:(lia)) as (v0 & Es0 & Ev0 & U0 & _). rewrite Es0, Ev0.
    destruct (nth_error ts (S (S i))) as [s2|] eqn:Es2; [|now left]. assert (L2 : (S (S i) < length ts)%nat) by (apply nth_error_Some; congruence).
    destruct (Hn _ L2) as (v2 & Es2' & Ev2 & U2 & _). assert (s2 = at_knot ts (S (S i))) as -> by congruence. rewrite Ev2.
    right. exists i. split; [reflexivity|]. split; [exact L2|].
    pose proof (Hi i ltac:(lia)) as I0. pose proof (Hi (S i) L2) as I1.
    unfold se3_slope. cbn [t_ang]. numR. apply slope_turn; auto; [lra|].
    eapply Rle_trans; [exact (Two i (S (S i)) v0 v2 ltac:(lia) Ev0 Ev2 ltac:(lra))|]. apply Req_le. field. lra. }
  destruct (se3_fit_all K g c ts vs d0 d1 out Hl Hi Hg) as (x & ks & E & Hx & _ & Hcon & _).
  pose proof (fit_unit_knots K g c ts vs d0 d1 out _ _ _ Hl Hi Hg Hu E) as Hk.
  do 3 eexists. split; [exact E|]. intros t Hrange.
  destruct (times_segment_from ts 0 t Hi ltac:(lia) Hrange) as (k & _ & Lk & Hs). pose proof (Hi k Lk) as Hlt.
  destruct (Hn k ltac:(lia)) as (va & Ta & Na & Ua & Ma0). destruct (Hn (S k) Lk) as (vb & Tb & Nb & Ub & Mb0).
  pose proof (se3_fitted_nth K ts vs d0 d1 k _ _ Hl Ta Na) as Ma. pose proof (se3_fitted_nth K ts vs d0 d1 (S k) _ _ Hl Tb Nb) as Mb.
  rewrite <- Hcon in Ma, Mb. destruct (nth_adjacent _ _ _ _ Ma Mb) as (u & v & Ec & _). pose proof (Hh k Lk) as Hg'.
  assert (Less : forall d, at_knot ts (S k) - at_knot ts k <= d -> 2 * e / d <= 2 * e / (at_knot ts (S k) - at_knot ts k)).
  { intros d Hd. apply Rmult_le_compat_l; [lra|]. apply Rinv_le_contravar; lra. }
  assert (Pd : 0 <= 2 * e / (at_knot ts (S k) - at_knot ts k)) by (apply Rdiv_le_0_compat; lra).
  assert (Ga : vnorm (t_ang (se3_knot_twist K ts vs d0 d1 k)) <= W + 2 * e / (at_knot ts (S k) - at_knot ts k)).
  { destruct (G k ltac:(lia)) as [Y|(j & -> & Lj & Y)]; [lra|]. pose proof (Hi j ltac:(lia)).
    pose proof (Less (at_knot ts (S (S j)) - at_knot ts j) ltac:(lra)). lra. }
  assert (Gb : vnorm (t_ang (se3_knot_twist K ts vs d0 d1 (S k))) <= W + 2 * e / (at_knot ts (S k) - at_knot ts k)).
  { destruct (G (S k) Lk) as [Y|(j & Ej & Lj & Y)]; [lra|]. injection Ej as <-. pose proof (Hi (S k) Lj).
    pose proof (Less (at_knot ts (S (S k)) - at_knot ts k) ltac:(lra)). lra. }
  pose proof (Two k (S k) va vb ltac:(lia) Na Nb Hlt) as Gm. clear Less.
  pose proof (Hr k ltac:(lia)) as Ra. pose proof (Hr (S k) Lk) as Rb.
  set (ta := at_knot ts k) in *. set (tb := at_knot ts (S k)) in *.
  set (ka := (va, se3_knot_twist K ts vs d0 d1 k)) in *. set (kb := (vb, se3_knot_twist K ts vs d0 d1 (S k))) in *.
  destruct (rot_piece K x HK Hx Hk u ta ka tb kb v t Ec Hs) as ([p Ep] & _ & R1 & R2 & _).
  exists p. split; [exact Ep|].
  apply Rle_trans with (5 / 3 * W * (tb - ta) + 10 / 3 * e); [|pose proof (Rmult_le_compat_l W _ _ PW Hg'); lra].
  assert (Er : p_rot p = rot_at K x t) by (unfold rot_at; now rewrite Ep).
  assert (Qa : angle (p_rot va) (q t) <= W * (t - ta) + e).
  { pose proof (angle_triangle _ (q ta) (q t) Ua (Hq _) (Hq _)) as T. pose proof (Ht ta t Ra ltac:(lra)) as T2. rewrite Rabs_left1 in T2 by lra. lra. }
  assert (Qb : angle (p_rot vb) (q t) <= W * (tb - t) + e).
  { pose proof (angle_triangle _ (q tb) (q t) Ub (Hq _) (Hq _)) as T. pose proof (Ht tb t Rb ltac:(lra)) as T2. rewrite Rabs_pos_eq in T2 by lra. lra. }
  assert (Main : angle (se3_segment_rotation K ta tb ka kb t) (q t) <= 5 / 3 * W * (tb - ta) + 10 / 3 * e) by (apply near_measured; auto).
  destruct (Req_dec t tb) as [->|Nt].
  + destruct v as [|y v].
    * rewrite Er, R1 by auto. exact Main.
    * rewrite Er, R2 by (split; [auto|discriminate]). change (qA kb) with (p_rot vb). eapply Rle_trans; [exact Qb|].
      assert (0 <= W * (tb - ta)) by (apply Rmult_le_pos; lra). lra.
  + rewrite Er, R1 by (left; lra). exact Main.
Qed.

(** The same for fitCurve, which takes zero for the velocities at the ends. *)
Corollary C126_fit_at_rest : forall K g (c : se3_curve R) W h e q ts vs out,
  exact_kindr K -> shortest K -> length ts = length vs -> (2 <= length ts)%nat -> increasing_times ts -> (g + N.of_nat (length ts) < 2 ^ 64)%N ->
  (forall t, unit_quat (q t)) -> (forall v, In v vs -> unit_quat (p_rot v)) -> 0 <= W -> 0 <= e ->
  turns W q (at_knot ts 0) (at_knot ts (length ts - 1)) -> (forall t v, In (t, v) (combine ts vs) -> angle (p_rot v) (q t) <= e) -> gaps h ts ->
  exists g' c' ks, se3_fit K g c ts vs out = Ok (g', c', ks) /\
    forall t, at_knot ts 0 <= t <= at_knot ts (length ts - 1) ->
      exists p, se3_evaluate K c' t = Ok (Some p) /\ angle (p_rot p) (q t) <= 5 / 3 * W * h + 10 / 3 * e.
Proof.
  intros. unfold se3_fit. apply C126_fit; auto; unfold zero_twist; cbn [t_lin t_ang]; rewrite norm_vzero; assumption.
Qed.

(** ** The error counts more than once *)

Local Notation Z := (V3 0 0 1 : vec3 R).
Local Notation U x := (qexp (vscale x Z)).

Lemma z_norm : vnorm Z = 1.
Proof. unfold vnorm. cbn. replace (_ + _ + _) with 1 by ring. apply sqrt_1. Qed.
Lemma z_conj x : qconj (U x) = U (- x).
Proof. rewrite qexp_conj. f_equal. unfold vneg, vscale. cbn. numR. f_equal; ring. Qed.
Lemma z_scale x y : vscale x (vscale y Z) = vscale (x * y) Z.
Proof. unfold vscale. cbn. numR. f_equal; ring. Qed.
Lemma z_neg x : vneg (vscale x Z) = vscale (- x) Z.
Proof. unfold vneg, vscale. cbn. numR. f_equal; ring. Qed.
Lemma z_log x : Rabs x < PI -> std_log (U x) = vscale x Z.
Proof. intros H. apply std_log_principal. rewrite vnorm_scale, z_norm, Rmult_1_r. exact H. Qed.
Lemma z_fixes x y : rotation_matrix (U x) (vscale y Z) = vscale y Z.
Proof. rewrite rotation_scale, qexp_fixes. reflexivity. Qed.
Lemma z_angle x : 0 <= x <= PI -> angle (U x) qone = x.
Proof.
  intros H. unfold angle, qexp. rewrite vnorm_scale, z_norm, Rmult_1_r, (Rabs_pos_eq x) by lra. cbn [qw qx qy qz qone]. numR.
  cbn [vscale vx vy vz]; numR.
  rewrite !Rmult_1_r. match goal with |- 2 * acos (Rabs ?z) = _ => replace z with (cos (x / 2)) by ring end. rewrite Rabs_pos_eq by (apply cos_ge_0; lra). rewrite acos_cos by lra. field.
Qed.

(** A body at rest, measured four times with errors of [e]: halfway the curve is 5/4 [e] off. *)
Theorem C126_error_refuted : forall e, 0 < e <= 1 ->
  let vs := map (fun x => Pose (V3 0 0 0) (U x)) [- e; e; e; - e] in
  turns 0 (fun _ => qone) 0 3 /\ (forall v, In v vs -> unit_quat (p_rot v) /\ angle (p_rot v) qone <= e) /\
  exists g' c' ks p, se3_fit std_kindr 0 se3_new [0; 1; 2; 3] vs [] = Ok (g', c', ks) /\
    se3_evaluate std_kindr c' (3 / 2) = Ok (Some p) /\ angle (p_rot p) qone = 5 / 4 * e /\ e < 5 / 4 * e.
Proof.
  intros e He vs. pose proof PI2_1. set (ts := [0; 1; 2; 3]).
  assert (A0 : angle qone qone = 0).
  { replace (qone : quat R) with (U 0) at 1; [apply z_angle; lra|]. replace (vscale 0 Z) with (V3 0 0 0 : vec3 R) by (unfold vscale; cbn; numR; f_equal; ring). apply qexp_zero. }
  assert (An : angle (U (- e)) qone = e).
  { rewrite <- z_conj. transitivity (angle (U e) qone); [|apply z_angle; lra].
    unfold angle. do 3 f_equal. generalize (U e). intros [a1 a2 a3 a4]. cbn [qconj qone qw qx qy qz]. numR. ring. }
  assert (Hu : forall v, In v vs -> unit_quat (p_rot v)).
  { intros v Hv. unfold vs in Hv. apply in_map_iff in Hv as (x & <- & _). cbn [p_rot]. apply qexp_unit. }
  split; [|split].
  - intros s t _ _. rewrite A0. pose proof (Rabs_pos (s - t)). lra.
  - intros v Hv. split; [now apply Hu|]. cbn in Hv. destruct Hv as [<-|[<-|[<-|[<-|[]]]]]; cbn [p_rot]; rewrite ?An, ?z_angle by lra; lra.
  - assert (Hi : increasing_times ts) by (intros i Li; cbn in Li; destruct i as [|[|[|i]]]; cbn; try lra; lia).
    assert (Hl : length ts = length vs) by reflexivity.
    unfold se3_fit. set (d := zero_twist : twist R).
    destruct (se3_fit_all std_kindr 0 se3_new ts vs d d [] Hl Hi ltac:(reflexivity)) as (x & ks & E & Hx & _ & Hcon & _).
    pose proof (fit_unit_knots std_kindr 0 se3_new ts vs d d [] _ _ _ Hl Hi ltac:(reflexivity) Hu E) as Hk.
    pose proof (se3_fitted_nth std_kindr ts vs d d 1 1 (Pose (V3 0 0 0) (U e)) Hl eq_refl eq_refl) as Ma.
    pose proof (se3_fitted_nth std_kindr ts vs d d 2 2 (Pose (V3 0 0 0) (U e)) Hl eq_refl eq_refl) as Mb.
    rewrite <- Hcon in Ma, Mb. destruct (nth_adjacent _ _ _ _ Ma Mb) as (u & v & Ec & _).
    destruct (rot_piece std_kindr x std_log_exact Hx Hk u _ _ _ _ v (3 / 2) Ec ltac:(lra)) as ([p Ep] & _ & R1 & _).
    do 2 eexists. eexists. exists p. split; [exact E|]. split; [exact Ep|]. split; [|lra].
    assert (Er : p_rot p = rot_at std_kindr x (3 / 2)) by (unfold rot_at; now rewrite Ep). rewrite Er, R1 by (left; lra).
    assert (S1 : t_ang (se3_knot_twist std_kindr ts vs d d 1) = vscale e Z).
    { cbn [se3_knot_twist nth_error ts vs map]. unfold se3_slope, box_minus. cbn [t_ang p_rot k_log std_kindr]. numR.
      rewrite z_conj, qexp_add, z_log by (rewrite Rabs_pos_eq; lra). rewrite vmul_scale, z_scale. f_equal. field. }
    assert (S2 : t_ang (se3_knot_twist std_kindr ts vs d d 2) = vscale (- e) Z).
    { cbn [se3_knot_twist nth_error ts vs map]. unfold se3_slope, box_minus. cbn [t_ang p_rot k_log std_kindr]. numR.
      rewrite z_conj, qexp_add, z_log by (rewrite Rabs_left; lra). rewrite vmul_scale, z_scale. f_equal. field. }
    rewrite (rot_form std_kindr std_log_exact). unfold qA, wA. cbn [fst snd p_rot]. rewrite S1, S2, !z_scale, !z_conj, !z_fixes, !z_neg, !qexp_add.
    cbn [k_log std_kindr]. rewrite z_log by (rewrite Rabs_right; lra). rewrite !z_scale, !qexp_add.
    match goal with |- angle (qexp (vscale ?y _)) _ = _ => replace y with (5 / 4 * e) by field end. apply z_angle. lra.
Qed.

(** A body that turns by one radian per second, measured every second with an error of up to 1/10. *)
Example C126_example : let q t := qexp (vscale t (V3 0 0 1)) in
  exists g' c' ks, se3_fit std_kindr 0 se3_new [0; 1; 2] [Pose (V3 0 0 0) (q 0); Pose (V3 0 0 0) (q (11 / 10)); Pose (V3 0 0 0) (q (19 / 10))] [] = Ok (g', c', ks) /\
    forall t, 0 <= t <= 2 -> exists p, se3_evaluate std_kindr c' t = Ok (Some p) /\ angle (p_rot p) (q t) <= 2.
Proof.
  intros q. assert (N : vnorm (V3 0 0 1) = 1) by (unfold vnorm; cbn; replace (_ + _ + _) with 1 by ring; apply sqrt_1).
  assert (A : forall s t, angle (q s) (q t) <= Rabs (t - s)) by (intros s t; unfold q; eapply Rle_trans; [apply angle_exp|rewrite N; lra]).
  destruct (C126_fit_at_rest std_kindr 0 se3_new 1 1 (1 / 10) q [0; 1; 2] [Pose (V3 0 0 0) (q 0); Pose (V3 0 0 0) (q (11 / 10)); Pose (V3 0 0 0) (q (19 / 10))] [])
    as (g' & c' & ks & E & H).
  - apply std_log_exact.
  - apply std_shortest.
  - reflexivity.
  - cbn. lia.
  - intros i Li. cbn in Li. destruct i as [|[|i]]; cbn; try lra. lia.
  - reflexivity.
  - intros t. apply qexp_unit.
  - intros v [<-|[<-|[<-|[]]]]; cbn [p_rot]; apply qexp_unit.
  - lra.
  - lra.
  - intros s t _ _. eapply Rle_trans; [apply A|]. rewrite Rabs_minus_sym. lra.
  - intros t v [X|[X|[X|[]]]]; injection X as <- <-; cbn [p_rot]; (eapply Rle_trans; [apply A|]); apply Rabs_le; lra.
  - intros i Li. cbn in Li. destruct i as [|[|i]]; cbn; try lra. lia.
  - exists g', c', ks. split; [exact E|]. intros t Ht. destruct (H t) as (p & Ep & B); [cbn; lra|]. exists p. split; [exact Ep|]. lra.
Qed.
