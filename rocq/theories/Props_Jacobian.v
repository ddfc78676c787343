(** * C93, C94: the Jacobians of the expressions for poses of the plane *)

From Coquelicot Require Import Coquelicot.
From Coq Require Import List Reals Lra Lia.
From Verif Require Import Base Discrete DiscreteSpec DiscreteProofs Se2 Pose2Expr Pose2Proofs.
Import ListNotations.
Local Open Scope R_scope.

(** ** C93: transformationLog *)

(** Whenever the angle is 0 or larger than 0.01 and not a half turn, the Jacobian maps the
    velocity of a pose to the derivative of its logarithm. *)
Theorem C93_log_jacobian P w : moves P w ->
  let b := heading (p2_rot (P 0)) in
  b = 0 \/ 1 / 100 < Rabs b -> b <> PI ->
  varies (fun e => fst (transformation_log (P e))) (mat3_apply (snd (transformation_log (P 0))) w).
Proof.
  cbv zeta. intros M Hb Hp. pose proof (log_varies P w M Hp) as V. unfold transformation_log, log_jacobian in *. cbn [fst snd].
  rewrite !log_w in *. pose proof (heading_bounds (p2_rot (P 0))) as B. pose proof threshold1_bounds. pose proof threshold2_bounds.
  rewrite function1_exact, function2_exact; [exact V|exact B|destruct Hb; [now left|right; lra]|exact B|destruct Hb; [now left|right; lra]].
Qed.

(** For all angles but the half turn the logarithm has a derivative and the Jacobian is as near to it as this. *)
Theorem C93_log_jacobian_near P w : moves P w -> heading (p2_rot (P 0)) <> PI ->
  let v := fst (transformation_log (P 0)) in
  let d := mat3_apply (snd (transformation_log (P 0))) w in
  exists d', varies (fun e => fst (transformation_log (P e))) d' /\
    Rabs (w2_x d - w2_x d') <= 2 / 10 ^ 11 * Rabs (w2_x w) + 4 / 10 ^ 10 * (Rabs (w2_x v) * Rabs (w2_w w)) /\
    Rabs (w2_y d - w2_y d') <= 2 / 10 ^ 11 * Rabs (w2_y w) + 4 / 10 ^ 10 * (Rabs (w2_y v) * Rabs (w2_w w)) /\
    w2_w d = w2_w d'.
Proof.
  cbv zeta. intros M Hp. eexists. split; [exact (log_varies P w M Hp)|].
  unfold transformation_log, log_jacobian, mat3_apply, dot3. cbn [fst snd m3_x m3_y m3_w w2_x w2_y w2_w].
  rewrite !log_w. pose proof (heading_bounds (p2_rot (P 0))) as B.
  pose proof (function1_near _ B) as F1. pose proof (function2_near _ B) as F2. set (v := se2_log (P 0)). set (b := heading (p2_rot (P 0))) in *.
  assert (G : forall p q r s t : R, Rabs p <= 2 / 10 ^ 11 -> Rabs q <= 4 / 10 ^ 10 ->
    Rabs (p * r + s * q * t) <= 2 / 10 ^ 11 * Rabs r + 4 / 10 ^ 10 * (Rabs s * Rabs t)).
  { intros p q r s t Hq Hq'. eapply Rle_trans; [apply Rabs_triang|]. rewrite !Rabs_mult. apply Rplus_le_compat.
    - apply Rmult_le_compat_r; [apply Rabs_pos|exact Hq].
    - replace (Rabs s * Rabs q * Rabs t) with (Rabs q * (Rabs s * Rabs t)) by ring.
      apply Rmult_le_compat_r; [apply Rmult_le_pos; apply Rabs_pos|exact Hq']. }
  split; [|split; [|reflexivity]].
  - eapply Rle_trans; [|apply (G _ _ (w2_x w) (w2_x v) (w2_w w) F2 F1)]. right. f_equal. ring.
  - eapply Rle_trans; [|apply (G _ _ (w2_y w) (w2_y v) (w2_w w) F2 F1)]. right. f_equal. ring.
Qed.

(** It is not exact for small angles other than 0: the coefficient 0.0833333 is not 1/12. *)
Theorem C93_exact_refuted : exists P w, moves P w /\ heading (p2_rot (P 0)) <> PI /\
  ~ varies (fun e => fst (transformation_log (P e))) (mat3_apply (snd (transformation_log (P 0))) w).
Proof.
  set (T := Pose2 (rot_of (1 / 2000)) 0 0). exists (motion T (Twist2 1 0 0)), (Twist2 1 0 0).
  pose proof PI2_1 as HPI. assert (Hh : heading (p2_rot T) = 1 / 2000) by (apply heading_rot; lra).
  assert (Hn : heading (p2_rot T) <> PI) by lra.
  split; [apply motion_moves|]. rewrite motion_zero. split; [exact Hn|]. intros V.
  pose proof (log_varies (motion T (Twist2 1 0 0)) (Twist2 1 0 0) (motion_moves _ _)) as L. rewrite motion_zero in L. specialize (L Hn).
  pose proof (varies_unique _ _ _ V L) as X. apply (f_equal w2_x) in X.
  unfold transformation_log, log_jacobian, mat3_apply, dot3 in X. cbn [fst snd m3_x w2_x w2_y w2_w] in X. rewrite log_w, Hh in X.
  assert (function2 (1 / 2000) = half_cot (1 / 2000)) as Y by lra. clear X.
  unfold function2 in Y. cbv zeta in Y. fold threshold2 in Y. pose proof threshold2_bounds.
  rewrite (Rabs_pos_eq (1 / 2000)) in Y by lra. destruct (Rlt_dec threshold2 (1 / 2000)); [lra|].
  pose proof (half_cot_bound (1 / 2000)) as H1. rewrite Rabs_pos_eq in H1 by lra. specialize (H1 ltac:(lra)). lra.
Qed.

(** At a half turn the logarithm has no derivative at all, whatever the Jacobian. *)
Theorem C93_half_turn_refuted : exists P w, moves P w /\ forall d, ~ varies (fun e => fst (transformation_log (P e))) d.
Proof.
  set (T := Pose2 (rot_of PI) 0 0). exists (motion T (Twist2 0 0 1)), (Twist2 0 0 1). split; [apply motion_moves|].
  intros d [_ _ Vw]. pose proof PI_RGT_0 as HPI. pose proof PI2_1 as HPI2. assert (Hh : forall e, p2_rot (motion T (Twist2 0 0 1) e) = rot_of (PI + e)).
  { intros e. unfold motion. cbn [pose2_mul p2_rot T]. rewrite exp_formula. cbn [p2_rot se2_scale w2_w]. rewrite Rmult_1_l. apply rot_add. }
  assert (D : is_derive (fun e => heading (rot_of (PI + e))) 0 (w2_w d)).
  { eapply is_derive_ext; [|exact Vw]. intros e. unfold transformation_log. cbn [fst]. rewrite log_w, Hh. reflexivity. }
  assert (K : continuous (fun e => heading (rot_of (PI + e))) 0) by exact (ex_derive_continuous _ _ (ex_intro _ _ D)).
  assert (H0 : heading (rot_of (PI + 0)) = PI) by (rewrite Rplus_0_r; apply heading_rot; lra).
  destruct (K (fun y => 0 < y)) as [eps He]; [apply (open_gt 0); rewrite H0; lra|].
  set (e := Rmin (eps / 2) 1). assert (0 < e /\ e < eps /\ e <= 1) as (E1 & E2 & E3).
  { pose proof (cond_pos eps). unfold e. pose proof (Rmin_l (eps / 2) 1). pose proof (Rmin_r (eps / 2) 1). repeat split; try lra. apply Rmin_glb_lt; lra. }
  assert (X : 0 < heading (rot_of (PI + e))).
  { apply (He e). change (Rabs (e - 0) < eps). rewrite Rminus_0_r, Rabs_pos_eq; lra. }
  assert (Y : heading (rot_of (PI + e)) = e - PI).
  { replace (rot_of (PI + e)) with (rot_of (e - PI)); [apply heading_rot; lra|].
    apply rot2_ext; cbn; replace (PI + e) with ((e - PI) + 2 * PI) by ring; [rewrite cos_plus, cos_2PI, sin_2PI; ring|rewrite sin_plus, cos_2PI, sin_2PI; ring]. }
  lra.
Qed.

Example C93_example : let T := Pose2 (rot_of 1) 2 3 in let w := Twist2 1 1 1 in
  moves (motion T w) w /\ 1 / 100 < Rabs (heading (p2_rot (motion T w 0))) /\ heading (p2_rot (motion T w 0)) <> PI.
Proof.
  cbv zeta. split; [apply motion_moves|]. rewrite motion_zero. pose proof PI2_1. cbn [p2_rot]. rewrite heading_rot by lra.
  rewrite Rabs_pos_eq; lra.
Qed.

(** ** C94: slerp and the small expressions *)

Theorem C94_slerp P Q u w alpha : moves P u -> moves Q w ->
  let b := heading (p2_rot (pose2_mul (pose2_inv (P 0)) (Q 0))) in
  b = 0 \/ 1 / 100 < Rabs b -> b <> PI ->
  let '(_, H0, H1) := slerp_expression (P 0) (Q 0) alpha in
  moves (fun e => fst (fst (slerp_expression (P e) (Q e) alpha))) (twist_add (H0 u) (H1 w)).
Proof.
  cbv zeta. intros M N Hb Hp. unfold slerp_expression. cbn [transformation_log vector_scaling fst snd].
  pose proof (moves_mul _ _ _ _ (moves_inv _ _ M) N) as D.
  pose proof (C93_log_jacobian _ _ D Hb Hp) as L. cbn [transformation_log fst snd] in L.
  set (jl := mat3_apply _) in L. destruct L as [Lx Ly Lw].
  assert (V : varies (fun e => se2_scale (se2_log (pose2_mul (pose2_inv (P e)) (Q e))) alpha) (se2_scale (jl (twist_add (mat3_apply (adjoint (pose2_inv (Q 0))) (twist_opp (mat3_apply (adjoint (P 0)) u))) w)) alpha)).
  { split; unfold se2_scale; cbn [w2_x w2_y w2_w]; (eapply is_derive_eq; [deriv|ring]). }
  pose proof (moves_mul _ _ _ _ M (moves_exp _ _ V)) as S. cbn beta in S.
  match goal with |- moves _ ?x => match type of S with moves _ ?y => replace x with y; [exact S|] end end.
  set (A := mat3_apply (adjoint (pose2_inv (se2_exp _))) u). set (z := mat3_apply (adjoint (pose2_inv (Q 0))) _). set (J := exp_jacobian _).
  unfold twist_add, mat3_apply, dot3, se2_scale. cbn [m3_x m3_y m3_w w2_x w2_y w2_w]. unfold jl, mat3_apply, dot3. cbn [m3_x m3_y m3_w w2_x w2_y w2_w].
  f_equal; ring.
Qed.

(** The value runs from the first pose to the second with a constant velocity in body coordinates, whose angular part is at most a half turn. *)
Theorem C94_slerp_value t0 t1 :
  let value alpha := fst (fst (slerp_expression t0 t1 alpha)) in
  value 0 = t0 /\ value 1 = t1 /\
  exists v, - PI < w2_w v <= PI /\ forall alpha, moves (fun e => value (alpha + e)) v.
Proof.
  cbv zeta. unfold slerp_expression. cbn [transformation_log vector_scaling fst snd]. set (v := se2_log (pose2_mul (pose2_inv t0) t1)).
  destruct se2_exp_log as [E1 E2 E3]. split; [|split; [|exists v; split]].
  - exact (motion_zero t0 v).
  - unfold v. rewrite E1. pose proof (gmul_assoc t0 (ginv t0) t1) as A. pose proof (ginv_r t0) as I. pose proof (gone_l t1) as L.
    cbn [gmul ginv gone pose2_GroupOps] in A, I, L. rewrite A, I, L. reflexivity.
  - unfold v. rewrite log_w. apply heading_bounds.
  - intros alpha. pose proof (motion_moves (pose2_mul t0 (se2_exp (se2_scale v alpha))) v) as M.
    assert (X : forall e, motion (pose2_mul t0 (se2_exp (se2_scale v alpha))) v e = pose2_mul t0 (se2_exp (se2_scale v (alpha + e)))).
    { intros e. unfold motion. pose proof (E2 v alpha e) as Y. cbn [gmul pose2_GroupOps] in Y. rewrite Y.
      pose proof (gmul_assoc t0 (se2_exp (se2_scale v alpha)) (se2_exp (se2_scale v e))) as A. cbn [gmul pose2_GroupOps] in A. now rewrite A. }
    destruct M as [Mc Ms Mx My]. rewrite X in Mc, Ms, Mx, My.
    split; (eapply is_derive_ext; [|eassumption]); intros e; cbn beta; now rewrite X.
Qed.

(** The expressions for scaling vectors and subtracting points have the right Jacobians. *)
Theorem C94_scaling v d s s' : varies v d -> is_derive s 0 s' ->
  let '(_, H1, H2) := vector_scaling (v 0) (s 0) in
  varies (fun e => fst (fst (vector_scaling (v e) (s e)))) (twist_add (mat3_apply H1 d) (se2_scale H2 s')).
Proof.
  intros [Vx Vy Vw] Hs. cbn [vector_scaling fst].
  split; unfold se2_scale, twist_add, mat3_apply, dot3; cbn [m3_x m3_y m3_w w2_x w2_y w2_w]; (eapply is_derive_eq; [deriv|ring]).
Qed.

Record point_varies (p : R -> point2) (d : point2) : Prop := {
  pv_x : is_derive (fun e => pt_x (p e)) 0 (pt_x d);
  pv_y : is_derive (fun e => pt_y (p e)) 0 (pt_y d)
}.

Theorem C94_subtraction p q d d' : point_varies p d -> point_varies q d' ->
  let '(_, H1, H2) := points_subtraction (p 0) (q 0) in
  point_varies (fun e => fst (fst (points_subtraction (p e) (q e))))
    (Pt (pt_x (mat2_apply H1 d) + pt_x (mat2_apply H2 d')) (pt_y (mat2_apply H1 d) + pt_y (mat2_apply H2 d'))).
Proof.
  intros [Px Py] [Qx Qy]. cbn [points_subtraction fst].
  split; unfold mat2_apply; cbn [m2_x m2_y pt_x pt_y]; (eapply is_derive_eq; [deriv|ring]).
Qed.

(** poseAsPoint: the Jacobian is right for all motions exactly if the pose is not turned. *)
Theorem C94_pose_as_point p :
  (forall P w, P 0 = p -> moves P w -> point_varies (fun e => fst (pose2_as_point2 (P e))) (mat23_apply (snd (pose2_as_point2 p)) w)) <->
  p2_rot p = rot_of 0.
Proof.
  split.
  - intros H. specialize (H (motion p (Twist2 1 0 0)) (Twist2 1 0 0) (motion_zero _ _) (motion_moves _ _)).
    destruct H as [Hx Hy]. destruct (motion_moves p (Twist2 1 0 0)) as [_ _ Mx My]. rewrite motion_zero in Mx, My.
    cbn [pose2_as_point2 fst pt_x pt_y] in Hx, Hy.
    pose proof (eq_trans (eq_sym (is_derive_unique _ _ _ Mx)) (is_derive_unique _ _ _ Hx)) as E1.
    pose proof (eq_trans (eq_sym (is_derive_unique _ _ _ My)) (is_derive_unique _ _ _ Hy)) as E2.
    unfold turn_x, turn_y in E1, E2. cbn [pose2_as_point2 snd mat23_apply m23_x m23_y pt_x pt_y w2_x w2_y w2_w] in E1, E2. unfold dot3 in E1, E2. cbn [w2_x w2_y w2_w] in E1, E2.
    apply rot2_ext; cbn [rot_of rc rs]; rewrite ?cos_0, ?sin_0; lra.
  - intros Hr P w <- [_ _ Mx My]. rewrite Hr in Mx, My. unfold turn_x, turn_y in Mx, My. cbn [rot_of rc rs] in Mx, My. rewrite cos_0, sin_0 in Mx, My.
    split; cbn [pose2_as_point2 fst snd pt_x pt_y mat23_apply m23_x m23_y]; unfold dot3; cbn [w2_x w2_y w2_w];
      (eapply is_derive_eq; [eassumption|ring]).
Qed.

(** A turned pose for which it is wrong. *)
Theorem C94_pose_as_point_refuted : exists P w, moves P w /\
  ~ point_varies (fun e => fst (pose2_as_point2 (P e))) (mat23_apply (snd (pose2_as_point2 (P 0))) w).
Proof.
  set (T := Pose2 (rot_of (PI / 2)) 0 0). exists (motion T (Twist2 1 0 0)), (Twist2 1 0 0). split; [apply motion_moves|].
  intros [Hx _]. destruct (motion_moves T (Twist2 1 0 0)) as [_ _ Mx _]. cbn [pose2_as_point2 fst pt_x] in Hx.
  pose proof (eq_trans (eq_sym (is_derive_unique _ _ _ Mx)) (is_derive_unique _ _ _ Hx)) as E1. rewrite motion_zero in E1.
  unfold turn_x in E1. cbn [pose2_as_point2 snd mat23_apply m23_x pt_x w2_x w2_y w2_w T p2_rot rot_of rc rs] in E1. unfold dot3 in E1. cbn [w2_x w2_y w2_w] in E1.
  rewrite cos_PI2 in E1. lra.
Qed.

Example C94_example :
  let T0 := Pose2 (rot_of 0) 1 2 in let T1 := Pose2 (rot_of 1) 3 5 in let u := Twist2 1 0 (1 / 2) in let w := Twist2 0 1 2 in
  moves (motion T0 u) u /\ moves (motion T1 w) w /\
  let b := heading (p2_rot (pose2_mul (pose2_inv (motion T0 u 0)) (motion T1 w 0))) in 1 / 100 < Rabs b /\ b <> PI.
Proof.
  cbv zeta. split; [apply motion_moves|]. split; [apply motion_moves|]. rewrite !motion_zero. cbn [pose2_mul pose2_inv p2_rot].
  rewrite rot_opp, rot_add. pose proof PI2_1. replace (- 0 + 1) with 1 by ring. rewrite heading_rot by lra. rewrite Rabs_pos_eq; lra.
Qed.

Example C94_small_example :
  varies (fun e => Twist2 e (2 * e) 1) (Twist2 1 2 0) /\ is_derive (fun e : R => 3 * e) 0 3 /\ point_varies (fun e => Pt e (5 * e)) (Pt 1 5).
Proof.
  assert (I : is_derive (fun e : R => e) 0 1) by exact (is_derive_id 0).
  split; [|split]; [constructor| |constructor]; cbn [w2_x w2_y w2_w pt_x pt_y]; try exact I; try (apply d_const); (eapply is_derive_eq; [deriv|cbn beta; ring]).
Qed.

Print Assumptions C93_log_jacobian.
Print Assumptions C93_log_jacobian_near.
Print Assumptions C93_exact_refuted.
Print Assumptions C93_half_turn_refuted.
Print Assumptions C94_slerp.
Print Assumptions C94_slerp_value.
Print Assumptions C94_scaling.
Print Assumptions C94_subtraction.
Print Assumptions C94_pose_as_point.
Print Assumptions C94_pose_as_point_refuted.
