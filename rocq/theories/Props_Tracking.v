(** * C115: fitting samples of a motion of bounded speed *)

From Coquelicot Require Import Coquelicot.
From Coq Require Import List Bool Arith NArith ZArith Reals Lra Lia Psatz.
From Verif Require Import Base TimeOrder TimeInst KeyGen Manager ManagerSpec ManagerProofs ManagerProofs3 Num Sampling HermiteE3 HermiteSpec HermiteE3Proofs
  Props_HermiteE3 Props_Hermite2 Quat QuatSpec QuatProofs QuatLog QuatDist HermiteSE3 HermiteSE3Spec HermiteSE3Proofs HermiteSE3Curve HermiteSE3Motion
  Props_HermiteSE3 Props_HalfTurn Props_Speed Props_Sampled.
Import ListNotations.
Local Open Scope R_scope.

(** ** Specification *)

(** The orientation turns by at most [W] per second. *)
Definition turns (W : R) (Q : R -> quat R) (lo hi : R) : Prop :=
  forall s t, lo <= s <= hi -> lo <= t <= hi -> angle (Q s) (Q t) <= W * Rabs (s - t).

(** ** Positions *)

Lemma bump x : 0 <= x <= 1 -> 0 <= 3 * (x * x) - 2 * (x * x * x) <= 1.
Proof.
  intros X. assert (0 <= x * x) by nra. assert (0 <= x * x * (3 - 2 * x)) by (apply Rmult_le_pos; lra).
  assert (0 <= (1 - x) * (1 - x) * (1 + 2 * x)) by (apply Rmult_le_pos; nra). lra.
Qed.

Lemma near_position V ta tb (ka kb : knot R) t P : ta < tb -> ta <= t <= tb ->
  vnorm (HermiteE3.vsub (k_pos ka) P) <= V * (t - ta) -> vnorm (HermiteE3.vsub (k_pos kb) P) <= V * (tb - t) ->
  vnorm (k_vel ka) <= V -> vnorm (k_vel kb) <= V ->
  vnorm (HermiteE3.vsub (e3_segment_value ta tb ka kb t) P) <= 3 / 4 * V * (tb - ta).
Proof.
  intros L Ht Pa Pb Va Vb. assert (PV : 0 <= V) by (pose proof (vnorm_pos (k_vel ka)); lra).
  set (h := tb - ta) in *. set (x := (t - ta) / h). assert (Ph : 0 < h) by (unfold h; lra).
  assert (X : 0 <= x <= 1) by (unfold x, h; apply fraction_bounds; lra).
  assert (Ea : t - ta = x * h) by (unfold x; field; lra). assert (Eb : tb - t = (1 - x) * h) by (unfold x; replace (tb - t) with (h - (t - ta)) by (unfold h; ring); field; lra).
  rewrite Ea in Pa. rewrite Eb in Pb. pose proof (bump x X) as B. set (b := 3 * (x * x) - 2 * (x * x * x)) in *.
  assert (G1 : 0 <= x * ((1 - x) * (1 - x)) * h) by (apply Rmult_le_pos; [apply Rmult_le_pos; [|apply Rmult_le_pos]|]; lra).
  assert (G2 : 0 <= x * x * (1 - x) * h) by (apply Rmult_le_pos; [apply Rmult_le_pos; [apply Rmult_le_pos|]|]; lra).
  replace (HermiteE3.vsub (e3_segment_value ta tb ka kb t) P) with
    (HermiteE3.vadd (HermiteE3.vadd (HermiteE3.vadd (vscale (1 - b) (HermiteE3.vsub (k_pos ka) P)) (vscale b (HermiteE3.vsub (k_pos kb) P)))
      (vscale (x * ((1 - x) * (1 - x)) * h) (k_vel ka))) (vscale (- (x * x * (1 - x) * h)) (k_vel kb))).
  - eapply Rle_trans; [apply vnorm_add|]. eapply Rle_trans; [apply Rplus_le_compat_r, vnorm_add|].
    eapply Rle_trans; [apply Rplus_le_compat_r, Rplus_le_compat_r, vnorm_add|].
    rewrite !vnorm_scale, Rabs_Ropp, (Rabs_pos_eq (1 - b)), (Rabs_pos_eq b), (Rabs_pos_eq (x * ((1 - x) * (1 - x)) * h)), (Rabs_pos_eq (x * x * (1 - x) * h)) by lra.
    apply Rle_trans with ((1 - b) * (V * (x * h)) + b * (V * ((1 - x) * h)) + x * ((1 - x) * (1 - x)) * h * V + x * x * (1 - x) * h * V).
    + repeat apply Rplus_le_compat; apply Rmult_le_compat_l; lra.
    + assert (XX : 0 <= x * (1 - x)) by (apply Rmult_le_pos; lra). pose proof (Rle_0_sqr (1 - 2 * x)) as SQ. unfold Rsqr in SQ.
      assert (U : 0 <= (1 - 2 * x) * (1 - 2 * x) * (4 - (1 - 2 * x) * (1 - 2 * x))) by (apply Rmult_le_pos; lra).
      assert (VH : 0 <= V * h) by (apply Rmult_le_pos; lra).
      assert (Id : (1 - b) * (V * (x * h)) + b * (V * ((1 - x) * h)) + x * ((1 - x) * (1 - x)) * h * V + x * x * (1 - x) * h * V =
        3 / 4 * V * h - V * h * ((1 - 2 * x) * (1 - 2 * x) * (4 - (1 - 2 * x) * (1 - 2 * x))) / 4) by (unfold b; field).
      rewrite Id. assert (0 <= V * h * ((1 - 2 * x) * (1 - 2 * x) * (4 - (1 - 2 * x) * (1 - 2 * x)))) by (now apply Rmult_le_pos). lra.
  - unfold e3_segment_value. numR. fold h. fold x. unfold b. destruct ka as [[? ? ?] [? ? ?]], kb as [[? ? ?] [? ? ?]], P as [? ? ?].
    unfold HermiteE3.vadd, HermiteE3.vsub, vscale, vmul. cbn [HermiteE3.vx HermiteE3.vy HermiteE3.vz k_pos k_vel]. numR. f_equal; ring.
Qed.

(** ** Orientations *)

Lemma angle_right r p q : unit_quat r -> angle (qmul p r) (qmul q r) = angle p q.
Proof.
  unfold unit_quat. intros U. unfold angle. do 3 f_equal. destruct p as [pw px py pz], q as [w x y z], r as [rw rx ry rz]. cbn in *. numR.
  transitivity ((pw * w + px * x + py * y + pz * z) * (rw * rw + rx * rx + ry * ry + rz * rz)); [ring|]. rewrite U. ring.
Qed.
Lemma angle_left r p q : unit_quat r -> angle (qmul r p) (qmul r q) = angle p q.
Proof.
  unfold unit_quat. intros U. unfold angle. do 3 f_equal. destruct p as [pw px py pz], q as [w x y z], r as [rw rx ry rz]. cbn in *. numR.
  transitivity ((pw * w + px * x + py * y + pz * z) * (rw * rw + rx * rx + ry * ry + rz * rz)); [ring|]. rewrite U. ring.
Qed.

Lemma angle_exp b b' v : angle (qexp (vscale b v)) (qexp (vscale b' v)) <= Rabs (b' - b) * vnorm v.
Proof.
  rewrite angle_half, qexp_conj. replace (vneg (vscale b v)) with (vscale (- b) v) by (destruct v; unfold vneg, vscale; cbn; numR; f_equal; ring).
  rewrite qexp_add, <- vnorm_scale. replace (b' - b) with (- b + b') by ring. apply half_exp.
Qed.

Lemma angle_neg_r p q : angle p (qneg q) = angle p q.
Proof.
  unfold angle. do 2 f_equal. rewrite <- Rabs_Ropp. f_equal. destruct p, q. cbn. ring.
Qed.
Lemma angle_same p q q' : same_rotation q q' -> angle p q = angle p q'.
Proof. intros [->| ->]; [reflexivity|apply angle_neg_r]. Qed.

(** The factors of the three exponentials. *)
Definition f1 (x : R) := x * x * x - 3 * (x * x) + 3 * x.
Definition f2 (x : R) := - 2 * (x * x * x) + 3 * (x * x).
Definition f3 (x : R) := x * x * x.

Lemma f_mono x y : 0 <= x <= y -> y <= 1 -> f1 x <= f1 y /\ f2 x <= f2 y /\ f3 x <= f3 y.
Proof.
  intros X Y. unfold f1, f2, f3. assert (0 <= y - x) by lra.
  assert (Q3 : 0 <= (y - x) * (y * y + y * x + x * x)) by (apply Rmult_le_pos; nra).
  assert (Q1 : 0 <= (y - x) * ((1 - x) * (1 - x) + (1 - x) * (1 - y) + (1 - y) * (1 - y))) by (apply Rmult_le_pos; nra).
  assert (Q2 : 0 <= (y - x) * (3 * (x * (1 - x)) + 3 * (y * (1 - y)) + (y - x) * (y - x))) by (apply Rmult_le_pos; nra).
  repeat split; lra.
Qed.

(** From one time of a segment to another. *)
Lemma turn_between K ta tb (ka kb : pose R * twist R) s t : exact_kindr K -> shortest K -> ta < tb -> ta <= s <= t -> t <= tb ->
  unit_quat (p_rot (fst ka)) -> unit_quat (p_rot (fst kb)) ->
  let x := (s - ta) / (tb - ta) in let y := (t - ta) / (tb - ta) in
  angle (se3_segment_rotation K ta tb ka kb s) (se3_segment_rotation K ta tb ka kb t) <=
    (f1 y - f1 x + (f2 y - f2 x)) * ((tb - ta) / 3 * vnorm (t_ang (snd ka))) +
    (f2 y - f2 x + (f3 y - f3 x)) * ((tb - ta) / 3 * vnorm (t_ang (snd kb))) +
    (f2 y - f2 x) * angle (p_rot (fst ka)) (p_rot (fst kb)).
Proof.
  intros HK HS L Hs Ht Ua Ub x y.
  assert (X : 0 <= x) by (apply fraction_bounds; lra). assert (Y : y <= 1) by (apply fraction_bounds; lra).
  assert (XY : x <= y) by (unfold x, y, Rdiv; apply Rmult_le_compat_r; [left; apply Rinv_0_lt_compat; lra|lra]).
  destruct (f_mono x y (conj X XY) Y) as (M1 & M2 & M3).
  rewrite !(rot_form K HK ta tb ka kb). fold x. fold y.
  change (x * x * x - 3 * (x * x) + 3 * x) with (f1 x). change (- 2 * (x * x * x) + 3 * (x * x)) with (f2 x). change (x * x * x) with (f3 x).
  change (y * y * y - 3 * (y * y) + 3 * y) with (f1 y). change (- 2 * (y * y * y) + 3 * (y * y)) with (f2 y). change (y * y * y) with (f3 y).
  set (w1 := rotation_matrix (qconj (qA ka)) (vscale ((tb - ta) / 3) (wA ka))).
  set (w3 := rotation_matrix (qconj (qA kb)) (vscale ((tb - ta) / 3) (wA kb))).
  set (r := qmul (qmul (qmul (qexp (vneg w1)) (qconj (qA ka))) (qA kb)) (qexp (vneg w3))).
  set (w2 := k_log K r).
  assert (L1 : vnorm w1 = (tb - ta) / 3 * vnorm (t_ang (snd ka))) by (now apply w1_length).
  assert (L3 : vnorm w3 = (tb - ta) / 3 * vnorm (t_ang (snd kb))) by (now apply w1_length).
  assert (Ur : unit_quat r) by (unfold r; repeat apply unit_mul; auto using qexp_unit, unit_conj).
  assert (L2 : vnorm w2 <= vnorm w1 + angle (p_rot (fst ka)) (p_rot (fst kb)) + vnorm w3).
  { change (p_rot (fst ka)) with (qA ka). change (p_rot (fst kb)) with (qA kb).
    unfold w2. rewrite (half_log K r HK HS Ur), angle_half. unfold r. rewrite (qmul_assoc (qexp (vneg w1))).
    pose proof (half_exp (vneg w1)) as H1. pose proof (half_exp (vneg w3)) as H3. rewrite vnorm_neg in H1, H3.
    pose proof (half_mul (qmul (qexp (vneg w1)) (qmul (qconj (qA ka)) (qA kb))) (qexp (vneg w3))
      ltac:(repeat apply unit_mul; auto using qexp_unit, unit_conj) ltac:(apply qexp_unit)) as N1.
    pose proof (half_mul (qexp (vneg w1)) (qmul (qconj (qA ka)) (qA kb)) ltac:(apply qexp_unit)
      ltac:(apply unit_mul; auto using unit_conj)) as N2. lra. }
  clearbody w2 w1 w3. clear r Ur.
  assert (U : forall b1 b2 b3, unit_quat (qmul (qmul (qmul (qA ka) (qexp (vscale b1 w1))) (qexp (vscale b2 w2))) (qexp (vscale b3 w3))))
    by (intros; repeat apply unit_mul; auto using qexp_unit).
  pose proof (angle_triangle _ _ _ (U (f1 x) (f2 x) (f3 x)) (U (f1 y) (f2 x) (f3 x)) (U (f1 y) (f2 y) (f3 y))) as T1.
  pose proof (angle_triangle _ _ _ (U (f1 y) (f2 x) (f3 x)) (U (f1 y) (f2 y) (f3 x)) (U (f1 y) (f2 y) (f3 y))) as T2.
  assert (A1 : angle (qmul (qmul (qmul (qA ka) (qexp (vscale (f1 x) w1))) (qexp (vscale (f2 x) w2))) (qexp (vscale (f3 x) w3)))
    (qmul (qmul (qmul (qA ka) (qexp (vscale (f1 y) w1))) (qexp (vscale (f2 x) w2))) (qexp (vscale (f3 x) w3))) <= (f1 y - f1 x) * vnorm w1).
  { rewrite !angle_right by apply qexp_unit. rewrite angle_left by exact Ua. rewrite <- (Rabs_pos_eq (f1 y - f1 x)) by lra. apply angle_exp. }
  assert (A2 : angle (qmul (qmul (qmul (qA ka) (qexp (vscale (f1 y) w1))) (qexp (vscale (f2 x) w2))) (qexp (vscale (f3 x) w3)))
    (qmul (qmul (qmul (qA ka) (qexp (vscale (f1 y) w1))) (qexp (vscale (f2 y) w2))) (qexp (vscale (f3 x) w3))) <= (f2 y - f2 x) * vnorm w2).
  { rewrite angle_right by apply qexp_unit. rewrite angle_left by (apply unit_mul; [exact Ua|apply qexp_unit]).
    rewrite <- (Rabs_pos_eq (f2 y - f2 x)) by lra. apply angle_exp. }
  assert (A3 : angle (qmul (qmul (qmul (qA ka) (qexp (vscale (f1 y) w1))) (qexp (vscale (f2 y) w2))) (qexp (vscale (f3 x) w3)))
    (qmul (qmul (qmul (qA ka) (qexp (vscale (f1 y) w1))) (qexp (vscale (f2 y) w2))) (qexp (vscale (f3 y) w3))) <= (f3 y - f3 x) * vnorm w3).
  { rewrite angle_left by (repeat apply unit_mul; auto using qexp_unit). rewrite <- (Rabs_pos_eq (f3 y - f3 x)) by lra. apply angle_exp. }
  pose proof (Rmult_le_compat_l (f2 y - f2 x) _ _ ltac:(lra) L2) as L2'. rewrite <- L1, <- L3. lra.
Qed.

(** The share of a part of a segment, if the stored and the mean angular speeds are at most [W]. *)
Lemma turn_paced K W ta tb (ka kb : pose R * twist R) s t : exact_kindr K -> shortest K -> ta < tb -> ta <= s <= t -> t <= tb ->
  unit_quat (p_rot (fst ka)) -> unit_quat (p_rot (fst kb)) ->
  vnorm (t_ang (snd ka)) <= W -> vnorm (t_ang (snd kb)) <= W -> angle (p_rot (fst ka)) (p_rot (fst kb)) <= W * (tb - ta) ->
  let x := (s - ta) / (tb - ta) in let y := (t - ta) / (tb - ta) in
  angle (se3_segment_rotation K ta tb ka kb s) (se3_segment_rotation K ta tb ka kb t) <= (y - x + 4 / 3 * (f2 y - f2 x)) * (W * (tb - ta)).
Proof.
  intros HK HS L Hs Ht Ua Ub Wa Wb Wm x y.
  assert (X : 0 <= x) by (apply fraction_bounds; lra). assert (Y : y <= 1) by (apply fraction_bounds; lra).
  assert (XY : x <= y) by (unfold x, y, Rdiv; apply Rmult_le_compat_r; [left; apply Rinv_0_lt_compat; lra|lra]).
  destruct (f_mono x y (conj X XY) Y) as (M1 & M2 & M3).
  eapply Rle_trans; [apply turn_between; auto|]. fold x. fold y.
  apply Rle_trans with ((f1 y - f1 x + (f2 y - f2 x)) * ((tb - ta) / 3 * W) + (f2 y - f2 x + (f3 y - f3 x)) * ((tb - ta) / 3 * W) + (f2 y - f2 x) * (W * (tb - ta))).
  - apply Rplus_le_compat; [apply Rplus_le_compat|]; (apply Rmult_le_compat_l; [lra|]); auto; apply Rmult_le_compat_l; lra.
  - apply Req_le. unfold f1, f2, f3. field.
Qed.

(** As long as an orientation turns by at most [W] per second, that of the segment stays near to it. *)
Lemma near_orientation K W ta tb (ka kb : pose R * twist R) t Q : exact_kindr K -> shortest K -> ta < tb -> ta <= t <= tb ->
  unit_quat (p_rot (fst ka)) -> unit_quat (p_rot (fst kb)) -> unit_quat Q ->
  vnorm (t_ang (snd ka)) <= W -> vnorm (t_ang (snd kb)) <= W -> angle (p_rot (fst ka)) (p_rot (fst kb)) <= W * (tb - ta) ->
  angle (p_rot (fst ka)) Q <= W * (t - ta) -> angle (p_rot (fst kb)) Q <= W * (tb - t) ->
  angle (se3_segment_rotation K ta tb ka kb t) Q <= 5 / 3 * W * (tb - ta).
Proof.
  intros HK HS L Ht Ua Ub UQ Wa Wb Wm Qa Qb. assert (PW : 0 <= W) by (pose proof (vnorm_pos (t_ang (snd ka))); lra).
  set (y := (t - ta) / (tb - ta)). assert (Y : 0 <= y <= 1) by (apply fraction_bounds; lra).
  assert (Ea : t - ta = y * (tb - ta)) by (unfold y; field; lra). assert (Eb : tb - t = (1 - y) * (tb - ta)) by (unfold y; field; lra).
  assert (Ut : forall s, unit_quat (se3_segment_rotation K ta tb ka kb s)) by (intros s; now apply rot_unit).
  assert (PWH : 0 <= W * (tb - ta)) by (apply Rmult_le_pos; lra). rewrite Ea in Qa. rewrite Eb in Qb.
  destruct (Rle_lt_dec y (/ 2)) as [Hy|Hy].
  - pose proof (turn_paced K W ta tb ka kb ta t HK HS L ltac:(lra) ltac:(lra) Ua Ub Wa Wb Wm) as T. cbv zeta in T. fold y in T.
    rewrite (rot_start K HK ta tb ka kb L) in T. replace ((ta - ta) / (tb - ta)) with 0 in T by (field; lra).
    pose proof (angle_triangle _ (p_rot (fst ka)) Q (Ut t) Ua UQ) as Tr. rewrite (angle_sym (se3_segment_rotation K ta tb ka kb t) (p_rot (fst ka))) in Tr.
    apply Rle_trans with ((2 * y + 4 / 3 * f2 y) * (W * (tb - ta))).
    + change (qA ka) with (p_rot (fst ka)) in T. replace (f2 0) with 0 in T by (unfold f2; ring). lra.
    + replace (5 / 3 * W * (tb - ta)) with (5 / 3 * (W * (tb - ta))) by ring. apply Rmult_le_compat_r; [exact PWH|].
      destruct (f_mono y (/ 2) ltac:(lra) ltac:(lra)) as (_ & F & _). unfold f2 in *. lra.
  - pose proof (turn_paced K W ta tb ka kb t tb HK HS L ltac:(lra) ltac:(lra) Ua Ub Wa Wb Wm) as T. cbv zeta in T. fold y in T.
    rewrite (angle_same _ _ _ (rot_end K HK ta tb ka kb L Ua Ub)) in T. replace ((tb - ta) / (tb - ta)) with 1 in T by (field; lra).
    pose proof (angle_triangle _ (p_rot (fst kb)) Q (Ut t) Ub UQ) as Tr. change (qA kb) with (p_rot (fst kb)) in T.
    apply Rle_trans with ((2 * (1 - y) + 4 / 3 * (f2 1 - f2 y)) * (W * (tb - ta))); [lra|].
    replace (5 / 3 * W * (tb - ta)) with (5 / 3 * (W * (tb - ta))) by ring. apply Rmult_le_compat_r; [exact PWH|].
    destruct (f_mono (/ 2) y ltac:(lra) ltac:(lra)) as (_ & F & _). unfold f2 in *. lra.
Qed.

(** ** The stored velocities of a fit *)

Lemma se3_stored K V W ts (vs : list (pose R)) d0 d1 : exact_kindr K -> shortest K -> length ts = length vs -> increasing_times ts ->
  (forall v, In v vs -> unit_quat (p_rot v)) ->
  positions_paced V ts vs -> vnorm (t_lin d0) <= V -> vnorm (t_lin d1) <= V ->
  angles_paced W ts vs -> vnorm (t_ang d0) <= W -> vnorm (t_ang d1) <= W ->
  forall i, (i < length ts)%nat -> vnorm (t_lin (se3_knot_twist K ts vs d0 d1 i)) <= V /\ vnorm (t_ang (se3_knot_twist K ts vs d0 d1 i)) <= W.
Proof.
  intros HK HS Hl Hi Hu Hp D0 D1 Ha E0 E1.
  assert (Q : forall i, (i < length ts)%nat -> exists s v, nth_error ts i = Some s /\ nth_error vs i = Some v /\ at_knot ts i = s /\ unit_quat (p_rot v)).
  { intros i Li. destruct (nth_error ts i) as [s|] eqn:Es; [|apply nth_error_None in Es; lia].
    destruct (nth_error vs i) as [v|] eqn:Ev; [|apply nth_error_None in Ev; lia]. exists s, v. repeat split; auto; [now apply at_knot_nth|].
    apply Hu. now apply nth_error_In in Ev. }
  intros i Li. unfold se3_knot_twist. destruct i as [|i]; [auto|].
  destruct (Q i ltac:(lia)) as (s0 & v0 & Es0 & Ev0 & As0 & U0). destruct (Q (S i) Li) as (s1 & v1 & Es1 & Ev1 & As1 & U1). rewrite Es0, Ev0.
  destruct (nth_error ts (S (S i))) as [s2|] eqn:Es2; [|auto]. assert (L2 : (S (S i) < length ts)%nat) by (apply nth_error_Some; congruence).
  destruct (Q _ L2) as (s2' & v2 & Es2' & Ev2 & As2 & U2). assert (s2' = s2) as Eq by congruence. rewrite Eq in As2. rewrite Ev2.
  pose proof (Hi i ltac:(lia)) as I0. pose proof (Hi (S i) L2) as I1.
  pose proof (Hp i v0 v1 Ev0 Ev1) as P0. pose proof (Hp (S i) v1 v2 Ev1 Ev2) as P1.
  pose proof (Ha i v0 v1 Ev0 Ev1) as A0. pose proof (Ha (S i) v1 v2 Ev1 Ev2) as A1. rewrite As0, As1, As2 in *.
  unfold se3_slope. cbn [t_lin t_ang]. numR. split.
  - apply slope_speed; [lra|]. rewrite (vsub_split _ (p_pos v1)). eapply Rle_trans; [apply vnorm_add|]. lra.
  - apply slope_turn; auto; [lra|]. eapply Rle_trans; [apply (angle_triangle _ (p_rot v1)); auto|]. lra.
Qed.

(** ** C115 *)

(** A curve fitted to points sampled from a motion no faster than [V] at times at most [h] apart stays within [3/4 V h] of
    the motion, if the velocities given for the ends are at most [V].  The motion need not have a velocity anywhere. *)
Theorem C115_fit : forall debug g (c : e3_curve R) V h f ts d0 d1 out,
  consistent c -> e3_size c = 0%nat -> (2 <= length ts)%nat -> increasing_times ts -> (g + N.of_nat (length ts) < 2 ^ 64)%N ->
  changes V f (at_knot ts 0) (at_knot ts (length ts - 1)) -> gaps h ts -> vnorm d0 <= V -> vnorm d1 <= V ->
  exists g' c' ks, e3_fit_with_derivatives debug g c ts (map f ts) d0 d1 out = Ok (g', c', ks) /\
    forall t, at_knot ts 0 <= t <= at_knot ts (length ts - 1) ->
      exists p, e3_evaluate c' t = Ok (Some p) /\ vnorm (HermiteE3.vsub p (f t)) <= 3 / 4 * V * h.
Proof.
  intros debug g c V h f ts d0 d1 out Hc Hz H2 Hi Hg Hf Hh D0 D1.
  assert (PV : 0 <= V) by (pose proof (vnorm_pos d0); lra).
  assert (Hr : forall i, (i < length ts)%nat -> at_knot ts 0 <= at_knot ts i <= at_knot ts (length ts - 1)) by (intros i Li; now apply in_range).
  assert (Hp : paced V ts (map f ts)).
  { intros i Li. rewrite !nth_sample by lia. pose proof (Hi i Li).
    eapply Rle_trans; [apply Hf; apply Hr; lia|]. rewrite Rabs_pos_eq; lra. }
  assert (G : forall i, (i < length ts)%nat -> vnorm (fit_velocity ts (map f ts) d0 d1 i) <= V).
  { intros i Li. unfold fit_velocity. destruct i as [|i]; [exact D0|]. destruct (Nat.eqb_spec (S (S i)) (length ts)); [exact D1|].
    assert (L3 : (S (S i) < length ts)%nat) by lia. pose proof (Hi i ltac:(lia)). pose proof (Hi (S i) L3).
    unfold e3_slope. numR. apply slope_speed; [unfold at_knot in *; change (@tzero R _) with 0 in *; lra|]. now apply (two_steps V ts (map f ts) i). }
  destruct (e3_fit_spec debug g c ts (map f ts) d0 d1 out Hc Hz ltac:(now rewrite map_length) Hi Hg) as (x & ks & E & _ & [Hx _] & Hcon).
  do 3 eexists. split; [exact E|]. intros t Hrange.
  destruct (times_segment_from ts 0 t Hi ltac:(lia) Hrange) as (k & _ & Lk & Ht). pose proof (Hi k Lk) as Hlt.
  destruct (nth_adjacent _ _ _ _ (fitted_nth x ts _ d0 d1 k Hcon ltac:(lia)) (fitted_nth x ts _ d0 d1 (S k) Hcon Lk)) as (u & v & Ec & _).
  eexists. split; [exact (evaluate_segment x u _ _ _ _ v t Hx Ec Ht)|].
  apply Rle_trans with (3 / 4 * V * (at_knot ts (S k) - at_knot ts k)).
  - apply near_position; auto; cbn [k_pos k_vel]; try (apply G; lia); rewrite nth_sample by lia; (eapply Rle_trans; [apply Hf; auto; apply Hr; lia|]).
    + rewrite Rabs_left1; lra.
    + rewrite Rabs_pos_eq; lra.
  - apply Rmult_le_compat_l; [lra|]. now apply Hh.
Qed.

(** An SE3 curve fitted to poses sampled from a motion which neither moves faster than [V] nor turns faster than [W] stays
    within [3/4 V h] and [5/3 W h] of it. *)
Theorem C115_se3_fit : forall K g (c : se3_curve R) V W h f q ts d0 d1 out,
  exact_kindr K -> shortest K -> (2 <= length ts)%nat -> increasing_times ts -> (g + N.of_nat (length ts) < 2 ^ 64)%N ->
  (forall t, unit_quat (q t)) ->
  changes V f (at_knot ts 0) (at_knot ts (length ts - 1)) -> turns W q (at_knot ts 0) (at_knot ts (length ts - 1)) -> gaps h ts ->
  vnorm (t_lin d0) <= V -> vnorm (t_lin d1) <= V -> vnorm (t_ang d0) <= W -> vnorm (t_ang d1) <= W ->
  exists g' c' ks, se3_fit_with_derivatives K g c ts (map (fun t => Pose (f t) (q t)) ts) d0 d1 out = Ok (g', c', ks) /\
    forall t, at_knot ts 0 <= t <= at_knot ts (length ts - 1) ->
      exists p, se3_evaluate K c' t = Ok (Some p) /\
        vnorm (HermiteE3.vsub (p_pos p) (f t)) <= 3 / 4 * V * h /\ angle (p_rot p) (q t) <= 5 / 3 * W * h.
Proof.
  intros K g c V W h f q ts d0 d1 out HK HS H2 Hi Hg Hq Hf Ht Hh D0 D1 E0 E1.
  set (vs := map (fun t => Pose (f t) (q t)) ts). assert (Hl : length ts = length vs) by (unfold vs; now rewrite map_length).
  assert (PV : 0 <= V) by (pose proof (vnorm_pos (t_lin d0)); lra). assert (PW : 0 <= W) by (pose proof (vnorm_pos (t_ang d0)); lra).
  assert (Hr : forall i, (i < length ts)%nat -> at_knot ts 0 <= at_knot ts i <= at_knot ts (length ts - 1)) by (intros i Li; now apply in_range).
  assert (Hu : forall v, In v vs -> unit_quat (p_rot v)) by (intros v Hv; apply in_map_iff in Hv as (s & <- & _); apply Hq).
  assert (Hn : forall i, (i < length ts)%nat -> nth_error ts i = Some (at_knot ts i) /\ nth_error vs i = Some (Pose (f (at_knot ts i)) (q (at_knot ts i)))).
  { intros i Li. assert (X : nth_error ts i = Some (at_knot ts i)) by (now apply nth_error_nth'). split; [exact X|].
    unfold vs. now rewrite nth_error_map, X. }
  assert (Ab : forall i, (S i < length ts)%nat -> Rabs (at_knot ts i - at_knot ts (S i)) = at_knot ts (S i) - at_knot ts i)
    by (intros i Li; pose proof (Hi i Li); rewrite Rabs_left1; lra).
  assert (Hp : positions_paced V ts vs).
  { intros i a b Ea Eb. assert (Li : (S i < length ts)%nat) by (rewrite Hl; apply nth_error_Some; congruence).
    destruct (Hn i ltac:(lia)) as [_ Na]. destruct (Hn (S i) Li) as [_ Nb]. rewrite Ea in Na. rewrite Eb in Nb. injection Na as ->. injection Nb as ->.
    cbn [p_pos]. pose proof (Hi i Li). eapply Rle_trans; [apply Hf; apply Hr; lia|]. rewrite Rabs_pos_eq; lra. }
  assert (Ha : angles_paced W ts vs).
  { intros i a b Ea Eb. assert (Li : (S i < length ts)%nat) by (rewrite Hl; apply nth_error_Some; congruence).
    destruct (Hn i ltac:(lia)) as [_ Na]. destruct (Hn (S i) Li) as [_ Nb]. rewrite Ea in Na. rewrite Eb in Nb. injection Na as ->. injection Nb as ->.
    cbn [p_rot]. eapply Rle_trans; [apply Ht; apply Hr; lia|]. rewrite Ab by exact Li. lra. }
  pose proof (se3_stored K V W ts vs d0 d1 HK HS Hl Hi Hu Hp D0 D1 Ha E0 E1) as G.
  destruct (se3_fit_all K g c ts vs d0 d1 out Hl Hi Hg) as (x & ks & E & Hx & _ & Hcon & _).
  pose proof (fit_unit_knots K g c ts vs d0 d1 out _ _ _ Hl Hi Hg Hu E) as Hk.
  do 3 eexists. split; [exact E|]. intros t Hrange.
  destruct (times_segment_from ts 0 t Hi ltac:(lia) Hrange) as (k & _ & Lk & Hs). pose proof (Hi k Lk) as Hlt.
  destruct (Hn k ltac:(lia)) as [Ta Na]. destruct (Hn (S k) Lk) as [Tb Nb].
  pose proof (se3_fitted_nth K ts vs d0 d1 k _ _ Hl Ta Na) as Ma. pose proof (se3_fitted_nth K ts vs d0 d1 (S k) _ _ Hl Tb Nb) as Mb.
  rewrite <- Hcon in Ma, Mb. destruct (nth_adjacent _ _ _ _ Ma Mb) as (u & v & Ec & _).
  destruct (G k ltac:(lia)) as [Ga1 Ga2]. destruct (G (S k) Lk) as [Gb1 Gb2]. pose proof (Hh k Lk) as Hg'.
  set (ta := at_knot ts k) in *. set (tb := at_knot ts (S k)) in *.
  set (ka := (Pose (f ta) (q ta), se3_knot_twist K ts vs d0 d1 k)) in *. set (kb := (Pose (f tb) (q tb), se3_knot_twist K ts vs d0 d1 (S k))) in *.
  pose proof (Hr k ltac:(lia)) as Ra. pose proof (Hr (S k) Lk) as Rb. fold ta in Ra. fold tb in Rb.
  destruct (rot_piece K x HK Hx Hk u ta ka tb kb v t Ec Hs) as ([p Ep] & _ & R1 & R2 & _).
  exists p. split; [exact Ep|]. split.
  - assert (Et : contents (translation x) = map (fun tk => (fst tk, e3_knot (snd tk))) u ++ (ta, e3_knot ka) :: (tb, e3_knot kb) ::
      map (fun tk => (fst tk, e3_knot (snd tk))) v) by (rewrite translation_contents, Ec, map_app; reflexivity).
    pose proof (evaluate_segment (translation x) _ _ _ _ _ _ t (map_consistent _ _ Hx) Et Hs) as Y.
    rewrite (translation_evaluate K), Ep in Y. cbn [on_value] in Y.
    replace (p_pos p) with (e3_segment_value ta tb (e3_knot ka) (e3_knot kb) t) by congruence.
    apply Rle_trans with (3 / 4 * V * (tb - ta)); [|apply Rmult_le_compat_l; lra].
    apply near_position; auto; unfold ka, kb, e3_knot; cbn [k_pos k_vel fst snd p_pos]; auto.
    + eapply Rle_trans; [apply Hf; lra|]. rewrite Rabs_left1; lra.
    + eapply Rle_trans; [apply Hf; lra|]. rewrite Rabs_pos_eq; lra.
  - apply Rle_trans with (5 / 3 * W * (tb - ta)); [|apply Rmult_le_compat_l; lra].
    assert (Er : p_rot p = rot_at K x t) by (unfold rot_at; now rewrite Ep).
    assert (Qa : angle (q ta) (q t) <= W * (t - ta)) by (eapply Rle_trans; [apply Ht; lra|]; rewrite Rabs_left1; lra).
    assert (Qb : angle (q tb) (q t) <= W * (tb - t)) by (eapply Rle_trans; [apply Ht; lra|]; rewrite Rabs_pos_eq; lra).
    assert (Main : angle (se3_segment_rotation K ta tb ka kb t) (q t) <= 5 / 3 * W * (tb - ta)).
    { apply near_orientation; auto; unfold ka, kb; cbn [fst snd p_rot]; auto. eapply Rle_trans; [apply Ht; lra|]. rewrite Rabs_left1; lra. }
    destruct (Req_dec t tb) as [->|Nt].
    + destruct v as [|y v].
      * rewrite Er, R1 by auto. exact Main.
      * rewrite Er, R2 by (split; [auto|discriminate]). change (qA kb) with (q tb). eapply Rle_trans; [exact Qb|].
        assert (0 <= W * (tb - ta)) by (apply Rmult_le_pos; lra). lra.
    + rewrite Er, R1 by (left; lra). exact Main.
Qed.

(** The same for fitCurve, which takes zero for the velocities at the ends. *)
Corollary C115_fit_at_rest : forall debug g (c : e3_curve R) V h f ts out,
  consistent c -> e3_size c = 0%nat -> (2 <= length ts)%nat -> increasing_times ts -> (g + N.of_nat (length ts) < 2 ^ 64)%N ->
  0 <= V -> changes V f (at_knot ts 0) (at_knot ts (length ts - 1)) -> gaps h ts ->
  exists g' c' ks, e3_fit debug g c ts (map f ts) out = Ok (g', c', ks) /\
    forall t, at_knot ts 0 <= t <= at_knot ts (length ts - 1) ->
      exists p, e3_evaluate c' t = Ok (Some p) /\ vnorm (HermiteE3.vsub p (f t)) <= 3 / 4 * V * h.
Proof. intros debug g c V h f ts out Hc Hz H2 Hi Hg PV Hf Hh. unfold e3_fit. apply C115_fit; auto; rewrite norm_vzero; exact PV. Qed.

Corollary C115_se3_fit_at_rest : forall K g (c : se3_curve R) V W h f q ts out,
  exact_kindr K -> shortest K -> (2 <= length ts)%nat -> increasing_times ts -> (g + N.of_nat (length ts) < 2 ^ 64)%N ->
  (forall t, unit_quat (q t)) -> 0 <= V -> 0 <= W ->
  changes V f (at_knot ts 0) (at_knot ts (length ts - 1)) -> turns W q (at_knot ts 0) (at_knot ts (length ts - 1)) -> gaps h ts ->
  exists g' c' ks, se3_fit K g c ts (map (fun t => Pose (f t) (q t)) ts) out = Ok (g', c', ks) /\
    forall t, at_knot ts 0 <= t <= at_knot ts (length ts - 1) ->
      exists p, se3_evaluate K c' t = Ok (Some p) /\
        vnorm (HermiteE3.vsub (p_pos p) (f t)) <= 3 / 4 * V * h /\ angle (p_rot p) (q t) <= 5 / 3 * W * h.
Proof.
  intros K g c V W h f q ts out HK HS H2 Hi Hg Hq PV PW Hf Ht Hh. unfold se3_fit.
  apply C115_se3_fit; auto; unfold zero_twist; cbn [t_lin t_ang]; rewrite norm_vzero; assumption.
Qed.

(** ** How far a fitted curve turns between two times *)

Lemma f2_slope x y : 0 <= x <= y -> y <= 1 -> f2 y - f2 x <= 3 / 2 * (y - x).
Proof.
  intros X Y. unfold f2. assert (0 <= (y - x) * (3 / 2 - 3 * (x + y) + 2 * (x * x + x * y + y * y))).
  { apply Rmult_le_pos; [lra|]. pose proof (Rle_0_sqr (x + y - 1)) as A. pose proof (Rle_0_sqr (x - y)) as B. unfold Rsqr in *. lra. }
  lra.
Qed.

(** If neighbouring orientations are no farther apart than [W] times the difference of their times, then the orientations at
    any two times are no farther apart than [3 W] times the difference of these. *)
Theorem C115_turning : forall K g (c : se3_curve R) W ts vs d0 d1 out,
  exact_kindr K -> shortest K -> length ts = length vs -> (2 <= length ts)%nat -> increasing_times ts ->
  (g + N.of_nat (length ts) < 2 ^ 64)%N -> (forall v, In v vs -> unit_quat (p_rot v)) ->
  angles_paced W ts vs -> vnorm (t_ang d0) <= W -> vnorm (t_ang d1) <= W ->
  exists g' c' ks, se3_fit_with_derivatives K g c ts vs d0 d1 out = Ok (g', c', ks) /\
    forall s t, at_knot ts 0 <= s -> s <= t -> t <= at_knot ts (length ts - 1) ->
      exists a b, se3_evaluate K c' s = Ok (Some a) /\ se3_evaluate K c' t = Ok (Some b) /\ angle (p_rot a) (p_rot b) <= 3 * W * (t - s).
Proof.
  intros K g c W ts vs d0 d1 out HK HS Hl H2 Hi Hg Hu Ha E0 E1.
  assert (PW : 0 <= W) by (pose proof (vnorm_pos (t_ang d0)); lra).
  assert (Hn : forall i, (i < length ts)%nat -> exists v, nth_error ts i = Some (at_knot ts i) /\ nth_error vs i = Some v /\ unit_quat (p_rot v)).
  { intros i Li. destruct (nth_error vs i) as [v|] eqn:Ev; [|apply nth_error_None in Ev; lia].
    exists v. split; [now apply nth_error_nth'|]. split; [reflexivity|]. apply Hu. now apply nth_error_In in Ev. }
  assert (G : forall i, (i < length ts)%nat -> vnorm (t_ang (se3_knot_twist K ts vs d0 d1 i)) <= W).
  { intros i Li. unfold se3_knot_twist. destruct i as [|i]; [auto|].
    destruct (Hn i ltac:(lia)) as (v0 & Es0 & Ev0 & U0). destruct (Hn (S i) Li) as (v1 & Es1 & Ev1 & U1). rewrite Es0, Ev0.
    destruct (nth_error ts (S (S i))) as [s2|] eqn:Es2; [|auto]. assert (L2 : (S (S i) < length ts)%nat) by (apply nth_error_Some; congruence).
    destruct (Hn _ L2) as (v2 & Es2' & Ev2 & U2). assert (s2 = at_knot ts (S (S i))) as -> by congruence. rewrite Ev2.
    pose proof (Hi i ltac:(lia)) as I0. pose proof (Hi (S i) L2) as I1.
    pose proof (Ha i v0 v1 Ev0 Ev1) as A0. pose proof (Ha (S i) v1 v2 Ev1 Ev2) as A1.
    unfold se3_slope. cbn [t_ang]. numR. apply slope_turn; auto; [lra|]. eapply Rle_trans; [apply (angle_triangle _ (p_rot v1)); auto|]. lra. }
  destruct (se3_fit_all K g c ts vs d0 d1 out Hl Hi Hg) as (x & ks & E & Hx & _ & Hcon & _).
  pose proof (fit_unit_knots K g c ts vs d0 d1 out _ _ _ Hl Hi Hg Hu E) as Hk.
  do 3 eexists. split; [exact E|].
  assert (P : forall k, (S k < length ts)%nat -> exists ka kb, unit_quat (p_rot (fst ka)) /\ unit_quat (p_rot (fst kb)) /\
    vnorm (t_ang (snd ka)) <= W /\ vnorm (t_ang (snd kb)) <= W /\ angle (p_rot (fst ka)) (p_rot (fst kb)) <= W * (at_knot ts (S k) - at_knot ts k) /\
    forall t, at_knot ts k <= t <= at_knot ts (S k) -> (exists p, se3_evaluate K x t = Ok (Some p)) /\
      same_rotation (se3_segment_rotation K (at_knot ts k) (at_knot ts (S k)) ka kb t) (rot_at K x t)).
  { intros k Lk. destruct (Hn k ltac:(lia)) as (va & Ta & Na & Ua). destruct (Hn (S k) Lk) as (vb & Tb & Nb & Ub).
    pose proof (se3_fitted_nth K ts vs d0 d1 k _ _ Hl Ta Na) as Ma. pose proof (se3_fitted_nth K ts vs d0 d1 (S k) _ _ Hl Tb Nb) as Mb.
    rewrite <- Hcon in Ma, Mb. destruct (nth_adjacent _ _ _ _ Ma Mb) as (u & v & Ec & _).
    exists (va, se3_knot_twist K ts vs d0 d1 k), (vb, se3_knot_twist K ts vs d0 d1 (S k)). cbn [fst snd].
    split; [exact Ua|]. split; [exact Ub|]. split; [apply G; lia|]. split; [now apply G|]. split; [now apply Ha|].
    intros t Ht. destruct (rot_piece K x HK Hx Hk u _ _ _ _ v t Ec Ht) as (Ep & _ & R1 & R2 & _). split; [exact Ep|].
    destruct (Req_dec t (at_knot ts (S k))) as [->|Nt].
    - destruct v as [|y v]; [left; now rewrite R1 by auto|]. rewrite R2 by (split; [auto|discriminate]).
      apply (rot_end K HK); auto.
    - left. rewrite R1; [reflexivity|left; lra]. }
  assert (U : forall t, at_knot ts 0 <= t <= at_knot ts (length ts - 1) -> unit_quat (rot_at K x t)).
  { intros t Ht. destruct (times_segment_from ts 0 t Hi ltac:(lia) Ht) as (k & _ & Lk & Hs).
    destruct (P k Lk) as (ka & kb & Ua & _ & _ & _ & _ & Q). destruct (Q t Hs) as [_ [<-|X]].
    - now apply rot_unit.
    - assert (X' : unit_quat (qneg (rot_at K x t))) by (rewrite <- X; now apply rot_unit).
      unfold unit_quat in *. cbn [qneg qw qx qy qz] in X'. lra. }
  assert (B : forall k s t, (S k < length ts)%nat -> at_knot ts k <= s -> s <= t -> t <= at_knot ts (S k) ->
    angle (rot_at K x s) (rot_at K x t) <= 3 * W * (t - s)).
  { intros k s t Lk H0 H1 H3. pose proof (Hi k Lk) as L. destruct (P k Lk) as (ka & kb & Ua & Ub & Wa & Wb & Wm & Q).
    destruct (Q s ltac:(lra)) as [_ Qs]. destruct (Q t ltac:(lra)) as [_ Qt].
    rewrite <- (angle_same _ _ _ Qt), angle_sym, <- (angle_same _ _ _ Qs), angle_sym.
    eapply Rle_trans; [apply (turn_paced K W (at_knot ts k) (at_knot ts (S k)) ka kb s t HK HS L (conj H0 H1) H3 Ua Ub Wa Wb Wm)|].
    set (h := at_knot ts (S k) - at_knot ts k) in *. assert (Ph : 0 < h) by (unfold h; lra).
    set (y0 := (s - at_knot ts k) / h). set (y1 := (t - at_knot ts k) / h).
    assert (Y0 : 0 <= y0) by (apply fraction_bounds; lra). assert (Y1 : y1 <= 1) by (apply fraction_bounds; lra).
    assert (Y : y0 <= y1) by (unfold y0, y1, Rdiv; apply Rmult_le_compat_r; [left; now apply Rinv_0_lt_compat|lra]).
    pose proof (f2_slope y0 y1 (conj Y0 Y) Y1) as F.
    replace (3 * W * (t - s)) with (3 * (y1 - y0) * (W * h)) by (unfold y0, y1; field; lra).
    apply Rmult_le_compat_r; [apply Rmult_le_pos; lra|lra]. }
  assert (Inc : forall i j, (i <= j)%nat -> (j < length ts)%nat -> at_knot ts i <= at_knot ts j).
  { intros i j Lij Lj. induction Lij as [|j Lij IH]; [lra|]. pose proof (Hi j Lj). specialize (IH ltac:(lia)). lra. }
  assert (Ch : forall d k s t, (S (k + d) < length ts)%nat -> at_knot ts k <= s <= at_knot ts (S k) -> s <= t ->
    at_knot ts (k + d) <= t <= at_knot ts (S (k + d)) -> angle (rot_at K x s) (rot_at K x t) <= 3 * W * (t - s)).
  { induction d as [|d IH]; intros k s t Lk Hs Hst Ht.
    - rewrite Nat.add_0_r in *. apply (B k); try lra. exact Lk.
    - pose proof (Inc (S k) (k + S d)%nat ltac:(lia) ltac:(lia)) as I1.
      assert (Hb : forall z, at_knot ts k <= z <= at_knot ts (S (k + S d)) -> at_knot ts 0 <= z <= at_knot ts (length ts - 1)).
      { intros z Hz. pose proof (Inc 0%nat k ltac:(lia) ltac:(lia)). pose proof (Inc (S (k + S d)) (length ts - 1)%nat ltac:(lia) ltac:(lia)). lra. }
      pose proof (angle_triangle _ (rot_at K x (at_knot ts (S k))) _ (U s ltac:(apply Hb; lra)) (U (at_knot ts (S k)) ltac:(apply Hb; lra)) (U t ltac:(apply Hb; lra))) as Tr.
      pose proof (B k s (at_knot ts (S k)) ltac:(lia) ltac:(lra) ltac:(lra) ltac:(lra)) as B1.
      pose proof (Hi (S k) ltac:(lia)) as I2.
      pose proof (IH (S k) (at_knot ts (S k)) t) as B2. replace (S k + d)%nat with (k + S d)%nat in B2 by lia.
      specialize (B2 Lk ltac:(lra) ltac:(lra) Ht). lra. }
  intros s t Hs Hst Ht.
  destruct (times_segment_from ts 0 s Hi ltac:(lia) ltac:(lra)) as (k & _ & Lk & Sk).
  destruct (Rle_lt_dec t (at_knot ts (S k))) as [Hle|Hgt].
  - destruct (P k Lk) as (ka & kb & _ & _ & _ & _ & _ & Q). destruct (Q s Sk) as [[a Es] _]. destruct (Q t ltac:(lra)) as [[b Et] _].
    exists a, b. split; [exact Es|]. split; [exact Et|]. pose proof (B k s t Lk ltac:(lra) Hst Hle) as X. unfold rot_at in X. now rewrite Es, Et in X.
  - assert (Lk2 : (S (S k) < length ts)%nat).
    { destruct (Nat.eq_dec (S k) (length ts - 1)) as [Eq|Ne]; [rewrite Eq in Hgt; lra|lia]. }
    destruct (times_segment_from ts (S k) t Hi Lk2 ltac:(lra)) as (j & Lj & Lj2 & St).
    destruct (P k Lk) as (ka & kb & _ & _ & _ & _ & _ & Q). destruct (Q s Sk) as [[a Es] _].
    destruct (P j Lj2) as (ka' & kb' & _ & _ & _ & _ & _ & Q'). destruct (Q' t St) as [[b Et] _].
    exists a, b. split; [exact Es|]. split; [exact Et|].
    pose proof (Ch (j - k)%nat k s t) as X. replace (k + (j - k))%nat with j in X by lia. specialize (X Lj2 Sk Hst St).
    unfold rot_at in X. now rewrite Es, Et in X.
Qed.

(** Nothing less than [3/4 V h] will do: there are a motion and velocities for the ends for which it is reached. *)
Definition dip (V h t : R) : vec3 R := V3 (- V * Rmin t (h - t)) 0 0.

Theorem C115_sharp : forall V h, 0 < V -> 0 < h ->
  let ts := [0; h] in
  increasing_times ts /\ gaps h ts /\ changes V (dip V h) 0 h /\ vnorm (V3 V 0 0) <= V /\ vnorm (V3 (- V) 0 0) <= V /\
  exists g c ks p, e3_fit_with_derivatives true 0 e3_new ts (map (dip V h) ts) (V3 V 0 0) (V3 (- V) 0 0) [] = Ok (g, c, ks) /\
    e3_evaluate c (h / 2) = Ok (Some p) /\ vnorm (HermiteE3.vsub p (dip V h (h / 2))) = 3 / 4 * V * h.
Proof.
  intros V h PV Ph ts.
  assert (Hi : increasing_times ts) by (intros [|i] Li; unfold at_knot, ts in *; cbn in *; [lra|lia]).
  assert (Hg : gaps h ts) by (intros [|i] Li; unfold at_knot, ts in *; cbn in *; [lra|lia]).
  assert (N : forall v, vnorm (V3 v 0 0) = Rabs v).
  { intros v. unfold vnorm. cbn [HermiteE3.vx HermiteE3.vy HermiteE3.vz]. replace (_ + _ + _) with (Rsqr v) by (unfold Rsqr; ring). apply sqrt_Rsqr_abs. }
  split; [exact Hi|]. split; [exact Hg|]. split; [|split; [|split]].
  - intros s t Hs Ht.
    replace (HermiteE3.vsub (dip V h s) (dip V h t)) with (V3 (V * (Rmin t (h - t) - Rmin s (h - s))) 0 0)
      by (unfold dip, HermiteE3.vsub; cbn [HermiteE3.vx HermiteE3.vy HermiteE3.vz]; numR; f_equal; ring).
    rewrite N.
    rewrite Rabs_mult, (Rabs_pos_eq V) by lra. apply Rmult_le_compat_l; [lra|].
    unfold Rmin, Rabs. repeat destruct (Rle_dec _ _); repeat destruct Rcase_abs; lra.
  - rewrite N, Rabs_pos_eq; lra.
  - rewrite N, Rabs_Ropp, Rabs_pos_eq; lra.
  - destruct (e3_fit_spec true 0 e3_new ts (map (dip V h) ts) (V3 V 0 0) (V3 (- V) 0 0) [] consistent_empty eq_refl eq_refl Hi eq_refl)
      as (x & ks & E & _ & [Hx _] & Hcon).
    exists (0 + N.of_nat (length ts))%N, x, ([] ++ ks). eexists. split; [exact E|].
    assert (L0 : (0 < length ts)%nat) by (cbn; lia). assert (L1 : (1 < length ts)%nat) by (cbn; lia).
    destruct (nth_adjacent _ _ _ _ (fitted_nth x ts _ _ _ 0 Hcon L0) (fitted_nth x ts _ _ _ 1 Hcon L1)) as (u & w & Ec & _).
    assert (K0 : at_knot ts 0 = 0) by reflexivity. assert (K1 : at_knot ts 1 = h) by reflexivity. rewrite K0, K1 in Ec.
    split; [exact (evaluate_segment x u _ _ _ _ w (h / 2) Hx Ec ltac:(lra))|].
    assert (Z0 : dip V h 0 = V3 0 0 0) by (unfold dip; rewrite Rmin_left by lra; f_equal; ring).
    assert (Z1 : dip V h h = V3 0 0 0) by (unfold dip; rewrite Rmin_right by lra; f_equal; ring).
    assert (Z2 : dip V h (h / 2) = V3 (- V * h / 2) 0 0) by (unfold dip; rewrite Rmin_left by lra; f_equal; field).
    rewrite Z2. unfold fit_velocity, ts. cbn [map nth length Nat.eqb]. rewrite Z0, Z1.
    match goal with |- vnorm ?e = _ => assert (e = V3 (3 / 4 * V * h) 0 0) as -> end.
    + apply vec3_ext. intros a.
      match goal with |- coord a (HermiteE3.vsub (e3_segment_value ?p ?q ?k ?l ?s) ?z) = _ =>
        replace (coord a (HermiteE3.vsub (e3_segment_value p q k l s) z)) with (coord a (e3_segment_value p q k l s) - coord a z)
          by (generalize (e3_segment_value p q k l s), z; intros [? ? ?] [? ? ?]; destruct a; cbn; numR; ring) end.
      rewrite coord_value. unfold hval. destruct a; cbn; field; lra.
    + rewrite N. apply Rabs_pos_eq. assert (0 < V * h) by (now apply Rmult_lt_0_compat). lra.
Qed.

(** ** Instances of the hypotheses *)

Definition spinning (w : vec3 R) (t : R) : quat R := qexp (vscale t w).
Lemma spinning_angle w s t : angle (spinning w s) (spinning w t) <= vnorm w * Rabs (s - t).
Proof. rewrite angle_sym. unfold spinning. eapply Rle_trans; [apply angle_exp|]. lra. Qed.
Lemma spinning_turns w lo hi : turns (vnorm w) (spinning w) lo hi.
Proof. intros s t _ _. apply spinning_angle. Qed.

(** A body in uniform motion which spins about any axis at any rate, sampled at four times. *)
Example C115_example : forall w, exact_kindr std_kindr /\ shortest std_kindr /\ (2 <= length ts4)%nat /\ increasing_times ts4 /\
  (0 + N.of_nat (length ts4) < 2 ^ 64)%N /\ (forall t, unit_quat (spinning w t)) /\ 0 <= 10 /\ 0 <= vnorm w /\
  changes 10 (falling_velocity 10) (at_knot ts4 0) (at_knot ts4 (length ts4 - 1)) /\
  turns (vnorm w) (spinning w) (at_knot ts4 0) (at_knot ts4 (length ts4 - 1)) /\ (exists h, gaps h ts4) /\
  angles_paced (vnorm w) ts4 (map (fun t => Pose vzero (spinning w t)) ts4) /\ vnorm (t_ang (zero_twist : twist R)) <= vnorm w.
Proof.
  intros w. split; [apply std_exact_shortest|]. split; [apply std_exact_shortest|]. split; [cbn; lia|]. split; [exact ts4_increasing|].
  split; [reflexivity|]. split; [intros t; apply qexp_unit|]. split; [lra|]. split; [apply vnorm_pos|].
  split; [apply falling_changes; lra|]. split; [apply spinning_turns|]. split; [|split].
  - apply C112_example.
  - intros i a b Ea Eb. rewrite nth_error_map in Ea, Eb.
    destruct (nth_error ts4 i) as [s|] eqn:Es; [|discriminate]. destruct (nth_error ts4 (S i)) as [t|] eqn:Et; [|discriminate].
    cbn [option_map] in Ea, Eb. injection Ea as <-. injection Eb as <-. cbn [p_rot].
    assert (Li : (S i < length ts4)%nat) by (apply nth_error_Some; congruence). pose proof (ts4_increasing i Li) as I.
    rewrite (at_knot_nth _ _ _ Es), (at_knot_nth _ _ _ Et) in *.
    eapply Rle_trans; [apply spinning_angle|]. rewrite Rabs_left1; lra.
  - cbn [zero_twist t_ang]. rewrite norm_vzero. apply vnorm_pos.
Qed.

Print Assumptions C115_fit.
Print Assumptions C115_se3_fit.
Print Assumptions C115_sharp.
Print Assumptions C115_fit_at_rest.
Print Assumptions C115_se3_fit_at_rest.
Print Assumptions C115_turning.
