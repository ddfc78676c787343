(** * C109: how fast fitted curves move and turn *)

From Coquelicot Require Import Coquelicot.
From Coq Require Import List Bool Arith NArith ZArith Reals Lra Lia Psatz.
From Verif Require Import Base TimeOrder TimeInst KeyGen Manager ManagerSpec ManagerProofs ManagerProofs3 Num Sampling HermiteE3 HermiteSpec HermiteE3Proofs
  Props_HermiteE3 Props_Hermite2 Quat QuatSpec QuatProofs QuatLog QuatDist HermiteSE3 HermiteSE3Spec HermiteSE3Proofs HermiteSE3Curve HermiteSE3Motion
  Props_HermiteSE3 Props_HalfTurn.
Import ListNotations.
Local Open Scope R_scope.

(** ** Angles *)

(** The angle between two orientations, between zero and pi. *)
Definition angle (p q : quat R) : R := 2 * acos (Rabs (qw p * qw q + qx p * qx q + qy p * qy q + qz p * qz q)).

(** Half the angle of a rotation. *)
Definition half (q : quat R) : R := acos (Rabs (qw q)).

Lemma angle_half p q : angle p q = 2 * half (qmul (qconj p) q).
Proof. unfold angle, half. do 3 f_equal. destruct p, q. cbn. numR. ring. Qed.
Lemma angle_half' p q : angle p q = 2 * half (qmul q (qconj p)).
Proof. unfold angle, half. do 3 f_equal. destruct p, q. cbn. numR. ring. Qed.
Lemma angle_sym p q : angle p q = angle q p.
Proof. unfold angle. do 3 f_equal. ring. Qed.

Lemma unit_w q : unit_quat q -> 0 <= Rabs (qw q) <= 1.
Proof. intros U. split; [apply Rabs_pos|]. unfold unit_quat in U. apply Rabs_le. nra. Qed.

Lemma half_range q : unit_quat q -> 0 <= half q <= PI / 2.
Proof.
  intros U. pose proof (unit_w q U) as W. unfold half. pose proof (acos_bound (Rabs (qw q))) as B. split; [lra|].
  destruct (Rle_lt_dec (acos (Rabs (qw q))) (PI / 2)) as [L|L]; [exact L|exfalso].
  assert (cos (acos (Rabs (qw q))) < 0) by (apply cos_lt_0; pose proof PI_RGT_0; lra).
  rewrite cos_acos in H by lra. lra.
Qed.

Lemma acos_below x y : -1 <= x <= 1 -> 0 <= y <= PI -> cos y <= x -> acos x <= y.
Proof.
  intros X Y H. destruct (Rle_lt_dec (acos x) y) as [L|L]; [exact L|exfalso].
  pose proof (acos_bound x) as B. assert (cos (acos x) < cos y) by (apply cos_decreasing_1; lra). rewrite cos_acos in H0 by lra. lra.
Qed.

Lemma half_neg q : half (qneg q) = half q.
Proof. unfold half, qneg. cbn. now rewrite Rabs_Ropp. Qed.
Lemma half_conj q : half (qconj q) = half q.
Proof. reflexivity. Qed.

Lemma half_mul_pos p q : unit_quat p -> unit_quat q -> 0 <= qw p -> 0 <= qw q -> half (qmul p q) <= half p + half q.
Proof.
  intros U V P Q. pose proof (half_range p U) as [A1 A2]. pose proof (half_range q V) as [B1 B2].
  pose proof (half_range _ (unit_mul _ _ U V)) as [C1 C2]. pose proof (unit_w p U) as Wp. pose proof (unit_w q V) as Wq.
  destruct (Rle_lt_dec (half p + half q) (PI / 2)) as [L|L]; [|lra].
  assert (Cp : cos (half p) = qw p) by (unfold half; rewrite (Rabs_pos_eq (qw p)) in * by lra; rewrite cos_acos; lra).
  assert (Cq : cos (half q) = qw q) by (unfold half; rewrite (Rabs_pos_eq (qw q)) in * by lra; rewrite cos_acos; lra).
  assert (Sp : 0 <= sin (half p)) by (apply sin_ge_0; lra). assert (Sq : 0 <= sin (half q)) by (apply sin_ge_0; lra).
  pose proof (sin2_cos2 (half p)) as Tp. pose proof (sin2_cos2 (half q)) as Tq. unfold Rsqr in Tp, Tq. rewrite Cp in Tp. rewrite Cq in Tq.
  set (d := qx p * qx q + qy p * qy q + qz p * qz q).
  assert (D : d <= sin (half p) * sin (half q)).
  { apply le_by_squares; [now apply Rmult_le_pos|].
    replace (sin (half p) * sin (half q) * (sin (half p) * sin (half q)))
      with ((qx p * qx p + qy p * qy p + qz p * qz p) * (qx q * qx q + qy q * qy q + qz q * qz q)).
    - pose proof (Rle_0_sqr (qx p * qy q - qy p * qx q)) as N1. pose proof (Rle_0_sqr (qy p * qz q - qz p * qy q)) as N2.
      pose proof (Rle_0_sqr (qz p * qx q - qx p * qz q)) as N3. unfold Rsqr in N1, N2, N3. unfold d. lra.
    - unfold unit_quat in U, V.
      replace (qx p * qx p + qy p * qy p + qz p * qz p) with (sin (half p) * sin (half p)) by lra.
      replace (qx q * qx q + qy q * qy q + qz q * qz q) with (sin (half q) * sin (half q)) by lra. ring. }
  assert (W : qw (qmul p q) = qw p * qw q - d) by (unfold d; destruct p, q; cbn; numR; ring).
  unfold half at 1. apply acos_below; [pose proof (unit_w _ (unit_mul _ _ U V)); lra|pose proof PI_RGT_0; lra|].
  apply Rle_trans with (qw (qmul p q)); [|apply Rle_abs]. rewrite W, cos_plus, Cp, Cq. lra.
Qed.

Lemma half_mul p q : unit_quat p -> unit_quat q -> half (qmul p q) <= half p + half q.
Proof.
  intros U V. destruct (Rle_lt_dec 0 (qw p)) as [P|P], (Rle_lt_dec 0 (qw q)) as [Q|Q].
  - now apply half_mul_pos.
  - rewrite <- half_neg, <- qmul_neg_r, <- (half_neg q). apply half_mul_pos; auto using unit_neg. cbn. numR. lra.
  - rewrite <- half_neg, <- qmul_neg_l, <- (half_neg p). apply half_mul_pos; auto using unit_neg. cbn. numR. lra.
  - replace (qmul p q) with (qmul (qneg p) (qneg q)) by (rewrite qmul_neg_l, qmul_neg_r; apply qneg_neg).
    rewrite <- (half_neg p), <- (half_neg q). apply half_mul_pos; auto using unit_neg; cbn; numR; lra.
Qed.

Lemma half_exp v : 2 * half (qexp v) <= vnorm v.
Proof.
  pose proof (vnorm_pos v) as N. pose proof (half_range _ (qexp_unit v)) as [_ H].
  destruct (Rle_lt_dec (vnorm v) PI) as [L|L]; [|lra].
  unfold half. unfold qexp. cbn [qw]. rewrite Rabs_pos_eq by (apply cos_ge_0; lra). rewrite acos_cos by lra. lra.
Qed.

Lemma half_log K q : exact_kindr K -> shortest K -> unit_quat q -> vnorm (k_log K q) = 2 * half q.
Proof.
  intros HK HS U. pose proof (HS q U) as L. pose proof (vnorm_pos (k_log K q)) as N.
  assert (E : half q = half (qexp (k_log K q))) by (destruct (proj2 HK q U) as [-> | ->]; [reflexivity|now rewrite half_neg]).
  rewrite E. unfold half, qexp. cbn [qw]. rewrite Rabs_pos_eq by (apply cos_ge_0; lra). rewrite acos_cos by lra. lra.
Qed.

Lemma angle_triangle p q r : unit_quat p -> unit_quat q -> unit_quat r -> angle p r <= angle p q + angle q r.
Proof.
  intros U V W. rewrite !angle_half.
  replace (qmul (qconj p) r) with (qmul (qmul (qconj p) q) (qmul (qconj q) r)).
  - pose proof (half_mul (qmul (qconj p) q) (qmul (qconj q) r) ltac:(auto using unit_mul, unit_conj) ltac:(auto using unit_mul, unit_conj)). lra.
  - rewrite qmul_assoc, <- (qmul_assoc q), unit_conj_r, qmul_one_l by exact V. reflexivity.
Qed.

(** ** Norms *)

Lemma vnorm_add a b : vnorm (HermiteE3.vadd a b) <= vnorm a + vnorm b.
Proof.
  rewrite <- !qnorm_pure. replace (qpure (HermiteE3.vadd a b)) with (qadd (qpure a) (qpure b)); [apply qnorm_triangle|].
  destruct a, b. apply quat_ext; cbn; numR; ring.
Qed.
Lemma vmul_scale (v : vec3 R) s : vmul v s = vscale s v.
Proof. destruct v. unfold vmul, vscale. cbn. numR. f_equal; ring. Qed.

(** ** One segment *)

(** The four weights add up to at most two. *)
Lemma linear_weights x : 0 <= x <= 1 -> 6 * x * (1 - x) + Rabs (1 - 4 * x + 3 * (x * x)) + Rabs (3 * (x * x) - 2 * x) <= 2.
Proof.
  intros X. pose proof (Rle_0_sqr (1 - 2 * x)) as A. pose proof (Rle_0_sqr (x - 1 / 3)) as B. pose proof (Rle_0_sqr (x - 2 / 3)) as C.
  unfold Rsqr in A, B, C. unfold Rabs. destruct (Rcase_abs _), (Rcase_abs _); lra.
Qed.

Lemma linear_speed ta tb (ka kb : knot R) t : ta < tb -> ta <= t <= tb ->
  let x := (t - ta) / (tb - ta) in
  vnorm (e3_segment_velocity ta tb ka kb t) <=
    6 * x * (1 - x) * (vnorm (HermiteE3.vsub (k_pos kb) (k_pos ka)) / (tb - ta)) +
    Rabs (1 - 4 * x + 3 * (x * x)) * vnorm (k_vel ka) + Rabs (3 * (x * x) - 2 * x) * vnorm (k_vel kb).
Proof.
  intros L Ht x. assert (X : 0 <= x <= 1) by (apply fraction_bounds; lra).
  set (g0 := 6 * x * (1 - x) / (tb - ta)). assert (G : 0 <= g0).
  { unfold g0, Rdiv. apply Rmult_le_pos; [|left; apply Rinv_0_lt_compat; lra]. nra. }
  replace (e3_segment_velocity ta tb ka kb t) with
    (HermiteE3.vadd (HermiteE3.vadd (vscale g0 (HermiteE3.vsub (k_pos kb) (k_pos ka))) (vscale (1 - 4 * x + 3 * (x * x)) (k_vel ka)))
      (vscale (3 * (x * x) - 2 * x) (k_vel kb))).
  - eapply Rle_trans; [apply vnorm_add|]. eapply Rle_trans; [apply Rplus_le_compat_r, vnorm_add|].
    rewrite !vnorm_scale, (Rabs_pos_eq g0 G). apply Req_le. unfold g0. field. lra.
  - unfold e3_segment_velocity. numR. fold x. unfold g0. destruct ka as [[? ? ?] [? ? ?]], kb as [[? ? ?] [? ? ?]].
    unfold HermiteE3.vadd, HermiteE3.vsub, vscale, vmul. cbn [HermiteE3.vx HermiteE3.vy HermiteE3.vz k_pos k_vel]. numR. f_equal; field; lra.
Qed.

Lemma w1_length ta tb (k : pose R * twist R) : ta < tb -> unit_quat (p_rot (fst k)) ->
  vnorm (rotation_matrix (qconj (p_rot (fst k))) (vscale ((tb - ta) / 3) (t_ang (snd k)))) = (tb - ta) / 3 * vnorm (t_ang (snd k)).
Proof. intros L U. rewrite rotation_norm by now apply unit_conj. rewrite vnorm_scale, Rabs_pos_eq; lra. Qed.

Lemma angular_speed K ta tb (ka kb : pose R * twist R) t : exact_kindr K -> shortest K -> ta < tb -> ta <= t <= tb ->
  unit_quat (p_rot (fst ka)) -> unit_quat (p_rot (fst kb)) ->
  let x := (t - ta) / (tb - ta) in
  vnorm (omega K ta tb ka kb t) <=
    (1 - x * x) * vnorm (t_ang (snd ka)) + (1 - (1 - x) * (1 - x)) * vnorm (t_ang (snd kb)) +
    6 * x * (1 - x) * (angle (p_rot (fst ka)) (p_rot (fst kb)) / (tb - ta)).
Proof.
  intros HK HS L Ht Ua Ub x. assert (X : 0 <= x <= 1) by (apply fraction_bounds; lra).
  assert (E : vnorm (omega K ta tb ka kb t) = qnorm (se3_segment_qdiff K ta tb ka kb t)).
  { rewrite <- (omega_qdiff K HK ta tb ka kb L t Ua), qnorm_mul, qnorm_pure, (qnorm_unit (se3_segment_rotation K ta tb ka kb t)); [ring|].
    now apply rot_unit. }
  rewrite E, (qdiff_form K HK ta tb ka kb L). clear E. fold x.
  set (w1 := rotation_matrix (qconj (qA ka)) (vscale ((tb - ta) / 3) (wA ka))).
  set (w3 := rotation_matrix (qconj (qA kb)) (vscale ((tb - ta) / 3) (wA kb))).
  set (r := qmul (qmul (qmul (qexp (vneg w1)) (qconj (qA ka))) (qA kb)) (qexp (vneg w3))).
  set (w2 := k_log K r).
  assert (L1 : vnorm w1 = (tb - ta) / 3 * vnorm (t_ang (snd ka))) by (now apply w1_length).
  assert (L3 : vnorm w3 = (tb - ta) / 3 * vnorm (t_ang (snd kb))) by (now apply w1_length).
  assert (Ur : unit_quat r) by (unfold r; repeat apply unit_mul; auto using qexp_unit, unit_conj).
  assert (L2 : vnorm w2 <= vnorm w1 + angle (p_rot (fst ka)) (p_rot (fst kb)) + vnorm w3).
  { change (p_rot (fst ka)) with (qA ka). change (p_rot (fst kb)) with (qA kb).
    unfold w2. rewrite (half_log K r HK HS Ur), angle_half. unfold r. rewrite (qmul_assoc (qexp (vneg w1))).
    pose proof (half_exp (vneg w1)) as H1. pose proof (half_exp (vneg w3)) as H3. rewrite vnorm_neg in H1, H3.
    pose proof (half_mul (qmul (qexp (vneg w1)) (qmul (qconj (qA ka)) (qA kb))) (qexp (vneg w3))
      ltac:(repeat apply unit_mul; auto using qexp_unit, unit_conj) ltac:(apply qexp_unit)) as M1.
    pose proof (half_mul (qexp (vneg w1)) (qmul (qconj (qA ka)) (qA kb)) ltac:(apply qexp_unit)
      ltac:(apply unit_mul; auto using unit_conj)) as M2. lra. }
  assert (Ld : 0 < / (tb - ta)) by (apply Rinv_0_lt_compat; lra).
  assert (Q : forall b v, 0 <= b -> qnorm (qpure (vscale (b / (tb - ta)) v)) = b * (vnorm v / (tb - ta))).
  { intros b v B. rewrite qnorm_pure, vnorm_scale, Rabs_pos_eq; [unfold Rdiv; ring|]. unfold Rdiv. apply Rmult_le_pos; lra. }
  eapply Rle_trans; [apply qnorm_triangle|]. eapply Rle_trans; [apply Rplus_le_compat_r, qnorm_triangle|].
  rewrite !qnorm_mul, !qexp_norm, (qnorm_unit (qA ka) Ua), !Q by nra.
  pose proof (Rmult_le_compat_r (/ (tb - ta)) _ _ (Rlt_le _ _ Ld) L2) as L2'.
  set (A := vnorm (t_ang (snd ka))) in *. set (B := vnorm (t_ang (snd kb))) in *.
  set (T := angle (p_rot (fst ka)) (p_rot (fst kb))) in *.
  assert (N1 : vnorm w1 / (tb - ta) = A / 3) by (rewrite L1; field; lra).
  assert (N3 : vnorm w3 / (tb - ta) = B / 3) by (rewrite L3; field; lra).
  assert (N2 : vnorm w2 / (tb - ta) <= A / 3 + T / (tb - ta) + B / 3) by (unfold Rdiv in *; lra).
  rewrite N1, N3. set (W := vnorm w2 / (tb - ta)) in *. set (U := T / (tb - ta)) in *.
  assert (0 <= x * (1 - x)) by nra. nra.
Qed.

(** ** C109 on curves *)

(** Between two knots the speed is at most the mean speed, weighted with at most three halves, and the stored speeds,
    weighted with at most one. *)
Theorem C109_curve : forall (c : e3_curve R) ta ka tb kb t,
  consistent c -> adjacent (contents c) (ta, ka) (tb, kb) -> ta <= t <= tb ->
  let x := (t - ta) / (tb - ta) in
  exists v, e3_evaluate_derivative c t 1 = Ok (Some v) /\
    vnorm v <= 6 * x * (1 - x) * (vnorm (HermiteE3.vsub (k_pos kb) (k_pos ka)) / (tb - ta)) +
      Rabs (1 - 4 * x + 3 * (x * x)) * vnorm (k_vel ka) + Rabs (3 * (x * x) - 2 * x) * vnorm (k_vel kb).
Proof.
  intros c ta ka tb kb t Hc (u & v & E) Ht x. pose proof (consistent_incr _ _ _ _ _ _ _ Hc E) as L.
  eexists. split; [exact (velocity_segment c u ta ka tb kb v t Hc E Ht)|]. now apply linear_speed.
Qed.

Lemma translation_contents {S} (c : se3_curve S) :
  contents (translation c) = map (fun tk => (fst tk, e3_knot (snd tk))) (contents (h_mgr c)).
Proof. apply map_contents. Qed.

(** The same for the positions of SE3 curves; the angular speed is at most the sum of the stored ones, weighted with
    at most one, and of the mean angular speed, weighted with at most three halves. *)
Theorem C109_se3_curve : forall K (c : se3_curve R) ta ka tb kb t,
  exact_kindr K -> shortest K -> consistent (h_mgr c) -> unit_knots c ->
  adjacent (contents (h_mgr c)) (ta, ka) (tb, kb) -> ta <= t <= tb ->
  let x := (t - ta) / (tb - ta) in
  exists w, se3_evaluate_derivative K c t 1 = Ok (Some w) /\
    vnorm (t_lin w) <= 6 * x * (1 - x) * (vnorm (HermiteE3.vsub (p_pos (fst kb)) (p_pos (fst ka))) / (tb - ta)) +
      Rabs (1 - 4 * x + 3 * (x * x)) * vnorm (t_lin (snd ka)) + Rabs (3 * (x * x) - 2 * x) * vnorm (t_lin (snd kb)) /\
    vnorm (t_ang w) <= (1 - x * x) * vnorm (t_ang (snd ka)) + (1 - (1 - x) * (1 - x)) * vnorm (t_ang (snd kb)) +
      6 * x * (1 - x) * (angle (p_rot (fst ka)) (p_rot (fst kb)) / (tb - ta)).
Proof.
  intros K c ta ka tb kb t HK HS Hc Hu (u & v & E) Ht x. pose proof (consistent_incr _ _ _ _ _ _ _ Hc E) as L.
  destruct (rot_piece K c HK Hc Hu u ta ka tb kb v t E Ht) as (_ & [w Ew] & _ & _ & Ea).
  exists w. split; [exact Ew|]. split.
  - assert (Et : contents (translation c) = map (fun tk => (fst tk, e3_knot (snd tk))) u ++ (ta, e3_knot ka) :: (tb, e3_knot kb) ::
      map (fun tk => (fst tk, e3_knot (snd tk))) v) by (rewrite translation_contents, E, map_app; reflexivity).
    pose proof (velocity_segment (translation c) _ _ _ _ _ _ t (map_consistent _ _ Hc) Et Ht) as V.
    rewrite (translation_velocity K), Ew in V. cbn [on_value] in V.
    replace (t_lin w) with (e3_segment_velocity ta tb (e3_knot ka) (e3_knot kb) t) by congruence.
    apply (linear_speed ta tb (e3_knot ka) (e3_knot kb) t L Ht).
  - unfold ang_at in Ea. rewrite Ew in Ea. rewrite Ea. apply angular_speed; auto; [apply (Hu ta ka)|apply (Hu tb kb)]; rewrite E, in_app_iff; simpl; auto.
Qed.

(** ** C109 on fits *)

(** Neighbouring points are no farther apart than [V] times the difference of their times. *)
Definition paced (V : R) (ts : list R) (ps : list (vec3 R)) : Prop :=
  forall i, (S i < length ts)%nat -> vnorm (HermiteE3.vsub (nth (S i) ps vzero) (nth i ps vzero)) <= V * (at_knot ts (S i) - at_knot ts i).

Lemma vsub_split (a b c : vec3 R) : HermiteE3.vsub c a = HermiteE3.vadd (HermiteE3.vsub c b) (HermiteE3.vsub b a).
Proof. destruct a, b, c. unfold HermiteE3.vadd, HermiteE3.vsub. cbn. numR. f_equal; ring. Qed.

Lemma slope_speed V (tA tB : R) pA pB : tA < tB -> vnorm (HermiteE3.vsub pB pA) <= V * (tB - tA) ->
  vnorm (vmul (HermiteE3.vsub pB pA) (1 / (tB - tA))) <= V.
Proof.
  intros L H. assert (0 < 1 / (tB - tA)) by (apply Rdiv_lt_0_compat; lra).
  rewrite vmul_scale, vnorm_scale, Rabs_pos_eq by lra.
  apply Rle_trans with (1 / (tB - tA) * (V * (tB - tA))); [apply Rmult_le_compat_l; lra|]. apply Req_le. field. lra.
Qed.

Lemma two_steps V ts ps i : increasing_times ts -> paced V ts ps -> (S (S i) < length ts)%nat ->
  vnorm (HermiteE3.vsub (nth (S (S i)) ps vzero) (nth i ps vzero)) <= V * (at_knot ts (S (S i)) - at_knot ts i).
Proof.
  intros Hi Hp L. rewrite (vsub_split _ (nth (S i) ps vzero)). eapply Rle_trans; [apply vnorm_add|].
  pose proof (Hp i ltac:(lia)). pose proof (Hp (S i) L). lra.
Qed.

Lemma paced_pos V ts ps : increasing_times ts -> paced V ts ps -> (2 <= length ts)%nat -> 0 <= V.
Proof.
  intros Hi Hp L. pose proof (Hp 0%nat ltac:(lia)) as P. pose proof (Hi 0%nat ltac:(lia)) as I.
  pose proof (vnorm_pos (HermiteE3.vsub (nth 1 ps vzero) (nth 0 ps vzero))). nra.
Qed.

Lemma linear_total V x m a b : 0 <= V -> 0 <= x <= 1 -> m <= V -> 0 <= a <= V -> 0 <= b <= V ->
  6 * x * (1 - x) * m + Rabs (1 - 4 * x + 3 * (x * x)) * a + Rabs (3 * (x * x) - 2 * x) * b <= 2 * V.
Proof.
  intros PV X M A B. pose proof (linear_weights x X) as W. pose proof (Rabs_pos (1 - 4 * x + 3 * (x * x))) as P1.
  pose proof (Rabs_pos (3 * (x * x) - 2 * x)) as P2. assert (P0 : 0 <= 6 * x * (1 - x)) by nra.
  set (g1 := Rabs (1 - 4 * x + 3 * (x * x))) in *. set (g2 := Rabs (3 * (x * x) - 2 * x)) in *. set (g0 := 6 * x * (1 - x)) in *.
  apply Rle_trans with (g0 * V + g1 * V + g2 * V).
  - apply Rplus_le_compat; [apply Rplus_le_compat|]; apply Rmult_le_compat_l; lra.
  - replace (g0 * V + g1 * V + g2 * V) with ((g0 + g1 + g2) * V) by ring. apply Rmult_le_compat_r; lra.
Qed.

(** A fitted curve never moves faster than twice the largest mean speed between neighbouring points, if the velocities
    given for the ends do not exceed it. *)
Theorem C109_fit : forall debug g (c : e3_curve R) V ts ps d0 d1 out,
  consistent c -> e3_size c = 0%nat -> length ts = length ps -> (2 <= length ts)%nat -> increasing_times ts ->
  (g + N.of_nat (length ts) < 2 ^ 64)%N -> paced V ts ps -> vnorm d0 <= V -> vnorm d1 <= V ->
  exists g' c' ks, e3_fit_with_derivatives debug g c ts ps d0 d1 out = Ok (g', c', ks) /\
    forall t, at_knot ts 0 <= t <= at_knot ts (length ts - 1) ->
      exists v, e3_evaluate_derivative c' t 1 = Ok (Some v) /\ vnorm v <= 2 * V.
Proof.
  intros debug g c V ts ps d0 d1 out Hc Hz Hl H2 Hi Hg Hp D0 D1. pose proof (paced_pos V ts ps Hi Hp H2) as PV.
  destruct (e3_fit_spec debug g c ts ps d0 d1 out Hc Hz Hl Hi Hg) as (x & ks & E & _ & [Hx _] & Hcon).
  do 3 eexists. split; [exact E|]. intros t Hrange.
  destruct (times_segment_from ts 0 t Hi ltac:(lia) Hrange) as (k & _ & Lk & Ht). pose proof (Hi k Lk) as Hlt.
  destruct (nth_adjacent _ _ _ _ (fitted_nth x ts ps d0 d1 k Hcon ltac:(lia)) (fitted_nth x ts ps d0 d1 (S k) Hcon Lk)) as (u & v & Ec & _).
  destruct (C109_curve x _ _ _ _ t Hx (ex_intro _ u (ex_intro _ v Ec)) Ht) as (w & Ew & B). exists w. split; [exact Ew|].
  cbn [k_pos k_vel] in B. eapply Rle_trans; [exact B|].
  assert (G : forall i, (i < length ts)%nat -> vnorm (fit_velocity ts ps d0 d1 i) <= V).
  { intros i Li. unfold fit_velocity. destruct i as [|i]; [exact D0|]. destruct (Nat.eqb_spec (S (S i)) (length ts)); [exact D1|].
    assert (L3 : (S (S i) < length ts)%nat) by lia. pose proof (Hi i ltac:(lia)). pose proof (Hi (S i) L3).
    unfold e3_slope. numR. apply slope_speed; [unfold at_knot in *; change (@tzero R _) with 0 in *; lra|]. now apply (two_steps V ts ps i). }
  apply linear_total; auto.
  - apply fraction_bounds; lra.
  - apply Rle_div_l; [lra|]. rewrite Rmult_comm. replace (V * (at_knot ts (S k) - at_knot ts k)) with (V * (at_knot ts (S k) - at_knot ts k)) by ring.
    pose proof (Hp k Lk). lra.
  - split; [apply vnorm_pos|apply G; lia].
  - split; [apply vnorm_pos|apply G; lia].
Qed.

Lemma se3_fitted_nth K ts (vs : list (pose R)) d0 d1 i t v : length ts = length vs -> nth_error ts i = Some t -> nth_error vs i = Some v ->
  nth_error (combine ts (fit_coefficients (se3_slope K) d0 d1 None (combine ts vs))) i = Some (t, (v, se3_knot_twist K ts vs d0 d1 i)).
Proof.
  intros Hl Et Ev. apply combine_nth_error; [exact Et|].
  rewrite (fit_nth _ _ _ _ None i t v (combine_nth_error _ _ _ _ _ Et Ev)). do 2 f_equal.
  destruct i as [|j]; [reflexivity|]. unfold se3_knot_twist.
  assert (L : (S j < length ts)%nat) by (apply nth_error_Some; congruence).
  destruct (nth_error ts j) as [tp|] eqn:Etp; [|apply nth_error_None in Etp; lia].
  destruct (nth_error vs j) as [vp|] eqn:Evp; [|apply nth_error_None in Evp; lia].
  rewrite (combine_nth_error _ _ _ _ _ Etp Evp).
  destruct (nth_error ts (S (S j))) as [tn|] eqn:Etn.
  - destruct (nth_error vs (S (S j))) as [vn|] eqn:Evn.
    + now rewrite (combine_nth_error _ _ _ _ _ Etn Evn).
    + apply nth_error_None in Evn. assert (S (S j) < length ts)%nat by (apply nth_error_Some; congruence). lia.
  - now rewrite (proj2 (nth_error_combine_none ts vs _ Hl) Etn).
Qed.

(** Neighbouring orientations are no farther apart than [W] times the difference of their times. *)
Definition angles_paced (W : R) (ts : list R) (vs : list (pose R)) : Prop :=
  forall i a b, nth_error vs i = Some a -> nth_error vs (S i) = Some b ->
    angle (p_rot a) (p_rot b) <= W * (at_knot ts (S i) - at_knot ts i).

Definition positions_paced (V : R) (ts : list R) (vs : list (pose R)) : Prop :=
  forall i a b, nth_error vs i = Some a -> nth_error vs (S i) = Some b ->
    vnorm (HermiteE3.vsub (p_pos b) (p_pos a)) <= V * (at_knot ts (S i) - at_knot ts i).

Lemma at_knot_nth ts i t : nth_error ts i = Some t -> at_knot ts i = t.
Proof. intros E. unfold at_knot. now apply nth_error_nth. Qed.

Lemma slope_turn K W (tA tB : R) qA qB : exact_kindr K -> shortest K -> unit_quat qA -> unit_quat qB -> tA < tB ->
  angle qA qB <= W * (tB - tA) -> vnorm (vmul (box_minus K qB qA) (1 / (tB - tA))) <= W.
Proof.
  intros HK HS UA UB L H. assert (0 < 1 / (tB - tA)) by (apply Rdiv_lt_0_compat; lra).
  rewrite vmul_scale, vnorm_scale, Rabs_pos_eq by lra. unfold box_minus.
  rewrite half_log, <- angle_half' by (auto using unit_mul, unit_conj).
  apply Rle_trans with (1 / (tB - tA) * (W * (tB - tA))); [apply Rmult_le_compat_l; lra|]. apply Req_le. field. lra.
Qed.

Lemma angular_total W x m a b : 0 <= x <= 1 -> m <= W -> 0 <= a <= W -> 0 <= b <= W ->
  (1 - x * x) * a + (1 - (1 - x) * (1 - x)) * b + 6 * x * (1 - x) * m <= 3 * W.
Proof.
  intros X M A B. assert (PW : 0 <= W) by lra. assert (P0 : 0 <= 6 * x * (1 - x)) by nra.
  assert (P1 : 0 <= 1 - x * x) by nra. assert (P2 : 0 <= 1 - (1 - x) * (1 - x)) by nra.
  apply Rle_trans with ((1 - x * x) * W + (1 - (1 - x) * (1 - x)) * W + 6 * x * (1 - x) * W).
  - apply Rplus_le_compat; [apply Rplus_le_compat|]; apply Rmult_le_compat_l; lra.
  - replace ((1 - x * x) * W + (1 - (1 - x) * (1 - x)) * W + 6 * x * (1 - x) * W) with ((3 - 2 * ((1 - 2 * x) * (1 - 2 * x))) * W) by ring.
    apply Rmult_le_compat_r; [exact PW|]. pose proof (Rle_0_sqr (1 - 2 * x)) as Q. unfold Rsqr in Q. lra.
Qed.

(** A fitted SE3 curve neither moves faster than twice the largest mean speed nor turns faster than three times the largest
    mean angular speed between neighbouring poses, if the velocities given for the ends do not exceed them. *)
Theorem C109_se3_fit : forall K g (c : se3_curve R) V W ts vs d0 d1 out,
  exact_kindr K -> shortest K -> length ts = length vs -> (2 <= length ts)%nat -> increasing_times ts ->
  (g + N.of_nat (length ts) < 2 ^ 64)%N -> (forall v, In v vs -> unit_quat (p_rot v)) ->
  positions_paced V ts vs -> vnorm (t_lin d0) <= V -> vnorm (t_lin d1) <= V ->
  angles_paced W ts vs -> vnorm (t_ang d0) <= W -> vnorm (t_ang d1) <= W ->
  exists g' c' ks, se3_fit_with_derivatives K g c ts vs d0 d1 out = Ok (g', c', ks) /\
    forall t, at_knot ts 0 <= t <= at_knot ts (length ts - 1) ->
      exists w, se3_evaluate_derivative K c' t 1 = Ok (Some w) /\ vnorm (t_lin w) <= 2 * V /\ vnorm (t_ang w) <= 3 * W.
Proof.
  intros K g c V W ts vs d0 d1 out HK HS Hl H2 Hi Hg Hu Hp D0 D1 Ha E0 E1.
  assert (PV : 0 <= V) by (pose proof (vnorm_pos (t_lin d0)); lra).
  destruct (se3_fit_all K g c ts vs d0 d1 out Hl Hi Hg) as (x & ks & E & Hx & _ & Hcon & _ & Hin).
  pose proof (fit_unit_knots K g c ts vs d0 d1 out _ _ _ Hl Hi Hg Hu E) as Hk.
  do 3 eexists. split; [exact E|]. intros t Hrange.
  destruct (times_segment_from ts 0 t Hi ltac:(lia) Hrange) as (k & _ & Lk & Ht). pose proof (Hi k Lk) as Hlt.
  assert (Q : forall i, (i < length ts)%nat -> exists s v, nth_error ts i = Some s /\ nth_error vs i = Some v /\ at_knot ts i = s /\ unit_quat (p_rot v)).
  { intros i Li. destruct (nth_error ts i) as [s|] eqn:Es; [|apply nth_error_None in Es; lia].
    destruct (nth_error vs i) as [v|] eqn:Ev; [|apply nth_error_None in Ev; lia]. exists s, v. repeat split; auto; [now apply at_knot_nth|].
    apply Hu. now apply nth_error_In in Ev. }
  assert (G : forall i, (i < length ts)%nat -> vnorm (t_lin (se3_knot_twist K ts vs d0 d1 i)) <= V /\ vnorm (t_ang (se3_knot_twist K ts vs d0 d1 i)) <= W).
  { intros i Li. unfold se3_knot_twist. destruct i as [|i]; [auto|].
    destruct (Q i ltac:(lia)) as (s0 & v0 & Es0 & Ev0 & As0 & U0). destruct (Q (S i) Li) as (s1 & v1 & Es1 & Ev1 & As1 & U1). rewrite Es0, Ev0.
    destruct (nth_error ts (S (S i))) as [s2|] eqn:Es2; [|auto]. assert (L2 : (S (S i) < length ts)%nat) by (apply nth_error_Some; congruence).
    destruct (Q _ L2) as (s2' & v2 & Es2' & Ev2 & As2 & U2). assert (s2' = s2) as Eq by congruence. rewrite Eq in As2. rewrite Ev2.
    pose proof (Hi i ltac:(lia)) as I0. pose proof (Hi (S i) L2) as I1.
    pose proof (Hp i v0 v1 Ev0 Ev1) as P0. pose proof (Hp (S i) v1 v2 Ev1 Ev2) as P1.
    pose proof (Ha i v0 v1 Ev0 Ev1) as A0. pose proof (Ha (S i) v1 v2 Ev1 Ev2) as A1. rewrite As0, As1, As2 in *.
    unfold se3_slope. cbn [t_lin t_ang]. numR. split.
    - apply slope_speed; [lra|]. rewrite (vsub_split _ (p_pos v1)). eapply Rle_trans; [apply vnorm_add|]. lra.
    - apply slope_turn; auto; [lra|]. eapply Rle_trans; [apply (angle_triangle _ (p_rot v1)); auto|]. lra. }
  destruct (Q k ltac:(lia)) as (sa & va & Esa & Eva & Asa & Ua). destruct (Q (S k) Lk) as (sb & vb & Esb & Evb & Asb & Ub).
  pose proof (se3_fitted_nth K ts vs d0 d1 k sa va Hl Esa Eva) as Na. pose proof (se3_fitted_nth K ts vs d0 d1 (S k) sb vb Hl Esb Evb) as Nb.
  rewrite <- Hcon in Na, Nb. destruct (nth_adjacent _ _ _ _ Na Nb) as (u & v & Ec & _).
  rewrite Asa, Asb in *.
  destruct (C109_se3_curve K x _ _ _ _ t HK HS Hx Hk (ex_intro _ u (ex_intro _ v Ec)) Ht) as (w & Ew & B1 & B2).
  exists w. split; [exact Ew|]. cbn [fst snd] in B1, B2.
  pose proof (Hp k va vb Eva Evb) as P. pose proof (Ha k va vb Eva Evb) as A. rewrite Asa, Asb in P, A.
  destruct (G k ltac:(lia)) as [Ga1 Ga2]. destruct (G (S k) Lk) as [Gb1 Gb2].
  assert (X : 0 <= (t - sa) / (sb - sa) <= 1) by (apply fraction_bounds; lra).
  split.
  - eapply Rle_trans; [exact B1|]. apply linear_total; auto; [apply Rle_div_l; lra| |]; (split; [apply vnorm_pos|assumption]).
  - eapply Rle_trans; [exact B2|]. apply angular_total; auto; [apply Rle_div_l; lra| |]; (split; [apply vnorm_pos|assumption]).
Qed.

(** Twice is needed: for every [L] there are points whose mean speeds are at most one on which the fitted curve, at rest at
    both ends, reaches [2 - 1 / (L + 1)]. *)
Theorem C109_mean_speed_refuted : forall L, 1 <= L ->
  let ts := [0; L; L + 1; L + 1 + L] in
  let ps := [V3 L 0 0; V3 0 0 0; V3 1 0 0; V3 (1 - L) 0 0] in
  paced 1 ts ps /\
  exists g' (c' : e3_curve R) out', e3_fit true 0 e3_new ts ps [] = Ok (g', c', out') /\
  exists v, e3_evaluate_derivative c' (L + 1 / 2) 1 = Ok (Some v) /\ vnorm v = 2 - 1 / (L + 1).
Proof.
  intros L HL ts ps. split.
  { intros i Li. assert (i = 0 \/ i = 1 \/ i = 2)%nat as [ -> | [ -> | -> ] ] by (cbn in Li; lia);
      unfold at_knot, vnorm, ts, ps; cbn [nth HermiteE3.vsub HermiteE3.vx vy vz]; numR.
    - replace (_ + _ + _) with (L * L) by ring. rewrite sqrt_square; lra.
    - replace (_ + _ + _) with (1 * 1) by ring. rewrite sqrt_square; lra.
    - replace (_ + _ + _) with (L * L) by ring. rewrite sqrt_square; lra. }
  assert (Hi : increasing_times ts).
  { intros i Li. assert (i = 0 \/ i = 1 \/ i = 2)%nat as [ -> | [ -> | -> ] ] by (cbn in Li; lia); unfold at_knot, ts; cbn [nth]; lra. }
  unfold e3_fit.
  destruct (e3_fit_spec true 0 e3_new ts ps vzero vzero [] consistent_empty eq_refl eq_refl Hi eq_refl)
    as (x & ks & E & _ & [Hx _] & Hcon).
  do 3 eexists. split; [exact E|].
  destruct (nth_adjacent _ _ _ _ (fitted_nth x ts ps vzero vzero 1 Hcon ltac:(simpl; lia))
    (fitted_nth x ts ps vzero vzero 2 Hcon ltac:(simpl; lia))) as (u & v & Ec & _).
  eexists. split; [apply (velocity_segment x u _ _ _ _ v (L + 1 / 2) Hx Ec); unfold at_knot, ts; cbn [nth]; lra|].
  assert (X : forall w, coord AX w = 2 - 1 / (L + 1) -> coord AY w = 0 -> coord AZ w = 0 -> vnorm w = 2 - 1 / (L + 1)).
  { intros [a b d] Ha Hb Hd. cbn in Ha, Hb, Hd. subst. unfold vnorm. cbn [HermiteE3.vx vy vz].
    replace (_ + _ + _) with ((2 - 1 / (L + 1)) * (2 - 1 / (L + 1))) by ring. apply sqrt_square.
    assert (1 / (L + 1) <= 1) by (apply Rle_div_l; lra). lra. }
  apply X; rewrite coord_velocity; cbn [k_pos k_vel]; rewrite !coord_fit_velocity; unfold catmull_rom, at_knot, hvel, ts, ps; simpl; field; lra.
Qed.

(** ** Instances of the hypotheses *)

Lemma norm_vzero : vnorm vzero = 0.
Proof. unfold vnorm, vzero. cbn [HermiteE3.vx vy vz]. numR. replace (_ + _ + _) with 0 by ring. apply sqrt_0. Qed.


Example C109_example : exists (c : e3_curve R) V ts ps, consistent c /\ e3_size c = 0%nat /\ length ts = length ps /\ (2 <= length ts)%nat /\
  increasing_times ts /\ (0 + N.of_nat (length ts) < 2 ^ 64)%N /\ paced V ts ps /\ vnorm vzero <= V.
Proof.
  destruct (C109_mean_speed_refuted 1 ltac:(lra)) as [P _].
  match type of P with paced _ ?a ?b => exists e3_new, 1, a, b end. split; [apply consistent_empty|]. split; [reflexivity|].
  split; [|split; [|split; [|split; [|split; [exact P|]]]]]; try reflexivity.
  - cbn. lia.
  - intros i Li. assert (i = 0 \/ i = 1 \/ i = 2)%nat as [ -> | [ -> | -> ] ] by (cbn in Li; lia); unfold at_knot; cbn [nth]; lra.
  - rewrite norm_vzero. lra.
Qed.

Lemma std_exact_shortest : exact_kindr std_kindr /\ shortest std_kindr.
Proof. split; [exact std_log_exact|exact std_shortest]. Qed.

Example C109_se3_example : exact_kindr std_kindr /\ shortest std_kindr /\ length ts4 = length vs4 /\ (2 <= length ts4)%nat /\
  increasing_times ts4 /\ (0 + N.of_nat (length ts4) < 2 ^ 64)%N /\ (forall v, In v vs4 -> unit_quat (p_rot v)) /\
  positions_paced 4 ts4 vs4 /\ angles_paced 4 ts4 vs4 /\ vnorm (t_lin (zero_twist : twist R)) <= 4 /\ vnorm (t_ang (zero_twist : twist R)) <= 4.
Proof.
  split; [apply std_exact_shortest|]. split; [apply std_exact_shortest|]. split; [reflexivity|]. split; [cbn; lia|]. split; [apply ts4_increasing|].
  split; [reflexivity|]. split; [exact vs4_unit|]. split; [|split; [|split; cbn [t_lin t_ang zero_twist]; rewrite norm_vzero; lra]].
  - intros [|[|[|i]]] a b Ea Eb; [| | |cbn in Eb; destruct i; discriminate]; injection Ea as <-; injection Eb as <-; unfold at_knot, ts4; cbn [nth p_pos];
      unfold vnorm, HermiteE3.vsub; cbn [HermiteE3.vx vy vz]; numR.
    + apply Rle_trans with (sqrt (4 * 4)); [apply sqrt_le_1_alt; lra|rewrite sqrt_square; lra].
    + apply Rle_trans with (sqrt (4 * 4)); [apply sqrt_le_1_alt; lra|rewrite sqrt_square; lra].
    + apply Rle_trans with (sqrt (4 * 4)); [apply sqrt_le_1_alt; lra|rewrite sqrt_square; lra].
  - intros i a b Ea Eb. assert (unit_quat (p_rot a)) by (apply vs4_unit; now apply nth_error_In in Ea).
    assert (unit_quat (p_rot b)) by (apply vs4_unit; now apply nth_error_In in Eb).
    rewrite angle_half. pose proof (half_range _ (unit_mul _ _ (unit_conj _ H) H0)). pose proof PI_4.
    assert (Li : (S i < length ts4)%nat) by (change (length ts4) with (length vs4); apply nth_error_Some; congruence).
    rewrite (ts4_equidistant i Li). lra.
Qed.
