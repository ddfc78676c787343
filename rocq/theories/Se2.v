(** * The group SE(2), its exponential and logarithm, over the reals

    SlerpSE2Curve.cpp lines 155-180 and Pose2_Expressions.hpp lines 76, 99 call inverse,
    product, Logmap and Expmap of gtsam::Pose2, which is not part of the repository.  These
    are the mathematical functions it documents.  Simplifications: real numbers; gtsam takes
    the formulas of the straight motion below a small threshold of the angle,
    here they are taken at the angle 0 only. *)

From Coquelicot Require Import Coquelicot.
From Coq Require Import List Reals Lra Lia Bool Eqdep_dec.
From Verif Require Import Base Discrete DiscreteSpec.
Import ListNotations.
Local Open Scope R_scope.

(** A rotation of the plane: cosine and sine of its angle (gtsam::Rot2). SE2Config.hpp line 18. *)
Record rot2 := Rot2 { rc : R; rs : R; r_unit : rc * rc + rs * rs = 1 }.

(** A pose: rotation and position (gtsam::Pose2). SE2Config.hpp line 18. *)
Record pose2 := Pose2 { p2_rot : rot2; p2_x : R; p2_y : R }.

(** A twist: linear velocity and angular velocity (gtsam::Vector3). *)
Record twist2 := Twist2 { w2_x : R; w2_y : R; w2_w : R }.

Lemma rot2_ext (a b : rot2) : rc a = rc b -> rs a = rs b -> a = b.
Proof.
  destruct a as [c s U], b as [c' s' U']. simpl. intros -> ->. f_equal. apply UIP_dec. apply Req_EM_T.
Qed.

Lemma pose2_ext (a b : pose2) :
  rc (p2_rot a) = rc (p2_rot b) -> rs (p2_rot a) = rs (p2_rot b) -> p2_x a = p2_x b -> p2_y a = p2_y b -> a = b.
Proof. destruct a, b. simpl. intros A B -> ->. f_equal. now apply rot2_ext. Qed.

(** The rotation by an angle. *)
Lemma cos_sin_unit x : cos x * cos x + sin x * sin x = 1.
Proof. pose proof (sin2_cos2 x) as H. unfold Rsqr in H. lra. Qed.
(** The rotation by an angle, Pose2_Expressions.hpp line 99. *)
Definition rot_of (x : R) : rot2 := Rot2 (cos x) (sin x) (cos_sin_unit x).

(** Composition and inverse of rotations. *)
Lemma rot_mul_unit (a b : rot2) :
  (rc a * rc b - rs a * rs b) * (rc a * rc b - rs a * rs b) + (rs a * rc b + rc a * rs b) * (rs a * rc b + rc a * rs b) = 1.
Proof.
  transitivity ((rc a * rc a + rs a * rs a) * (rc b * rc b + rs b * rs b)); [ring|].
  rewrite (r_unit a), (r_unit b). ring.
Qed.
(** Rot2 operator*. SlerpSE2Curve.cpp line 172. *)
Definition rot_mul (a b : rot2) : rot2 := Rot2 (rc a * rc b - rs a * rs b) (rs a * rc b + rc a * rs b) (rot_mul_unit a b).
Lemma rot_inv_unit (a : rot2) : rc a * rc a + - rs a * - rs a = 1.
Proof. rewrite <- (r_unit a). ring. Qed.
(** Rot2::inverse. SlerpSE2Curve.cpp line 172. *)
Definition rot_inv (a : rot2) : rot2 := Rot2 (rc a) (- rs a) (rot_inv_unit a).

(** A rotation applied to a point. SlerpSE2Curve.cpp line 172. *)
Definition turn_x (a : rot2) (x y : R) : R := rc a * x - rs a * y.
(** SlerpSE2Curve.cpp line 172. *)
Definition turn_y (a : rot2) (x y : R) : R := rs a * x + rc a * y.

(** Poses compose like rigid motions: x -> R x + t. Not in the source: the identity. *)
Definition pose2_one : pose2 := Pose2 (rot_of 0) 0 0.
(** SlerpSE2Curve.cpp line 172, Pose2_Expressions.hpp line 44. *)
Definition pose2_mul (a b : pose2) : pose2 :=
  Pose2 (rot_mul (p2_rot a) (p2_rot b))
    (p2_x a + turn_x (p2_rot a) (p2_x b) (p2_y b)) (p2_y a + turn_y (p2_rot a) (p2_x b) (p2_y b)).
(** SlerpSE2Curve.cpp line 172. *)
Definition pose2_inv (a : pose2) : pose2 :=
  let r := rot_inv (p2_rot a) in Pose2 r (- turn_x r (p2_x a) (p2_y a)) (- turn_y r (p2_x a) (p2_y a)).

#[global] Instance pose2_GroupOps : GroupOps pose2 := { gone := pose2_one; gmul := pose2_mul; ginv := pose2_inv }.

#[global] Instance pose2_GroupLaws : GroupLaws pose2.
Proof.
  split; cbn [gmul ginv gone pose2_GroupOps].
  - intros a b c. apply pose2_ext; cbn; unfold turn_x, turn_y; cbn; ring.
  - intros a. apply pose2_ext; cbn; unfold turn_x, turn_y; cbn; rewrite cos_0, sin_0; ring.
  - intros a. pose proof (r_unit (p2_rot a)) as U.
    apply pose2_ext; cbn; unfold turn_x, turn_y; cbn; rewrite ?cos_0, ?sin_0; lra.
Qed.

(** The angle of a rotation, in (-PI, PI]. SlerpSE2Curve.cpp line 173. *)
Definition heading (a : rot2) : R := if Rle_dec 0 (rs a) then acos (rc a) else - acos (rc a).

Lemma rc_bounds a : -1 <= rc a <= 1.
Proof. pose proof (r_unit a) as U. split; nra. Qed.

Lemma sin_acos_abs a : sin (acos (rc a)) = Rabs (rs a).
Proof.
  rewrite sin_acos by apply rc_bounds. rewrite <- sqrt_Rsqr_abs. f_equal. unfold Rsqr. rewrite <- (r_unit a). ring.
Qed.

Lemma heading_bounds a : - PI < heading a <= PI.
Proof.
  unfold heading. pose proof (acos_bound (rc a)) as B. pose proof PI_RGT_0 as P. destruct (Rle_dec 0 (rs a)) as [H|H]; [lra|].
  split; [|lra]. destruct (Req_dec (acos (rc a)) PI) as [E|E]; [|lra]. exfalso.
  pose proof (sin_acos_abs a) as X. rewrite E, sin_PI in X. symmetry in X.
  destruct (Req_dec (rs a) 0) as [Z|Z]; [lra|]. now apply Rabs_no_R0 in Z.
Qed.

Lemma rot_heading a : rot_of (heading a) = a.
Proof.
  pose proof (sin_acos_abs a) as X. pose proof (cos_acos (rc a) (rc_bounds a)) as C.
  unfold heading. destruct (Rle_dec 0 (rs a)) as [H|H]; apply rot2_ext; cbn.
  - exact C.
  - rewrite X. now apply Rabs_pos_eq.
  - now rewrite cos_neg.
  - rewrite sin_neg, X, Rabs_left; lra.
Qed.

(** Two angles in that range with the same rotation are equal. *)
Lemma angle_unique x y : - PI < x <= PI -> - PI < y <= PI -> rot_of x = rot_of y -> x = y.
Proof.
  intros Hx Hy E.
  assert (C : cos x = cos y) by exact (f_equal rc E). assert (S : sin x = sin y) by exact (f_equal rs E).
  pose proof (acos_cos x) as Ax. pose proof (acos_cos y) as Ay.
  pose proof (acos_cos (- x)) as Bx. pose proof (acos_cos (- y)) as By. rewrite cos_neg in Bx, By.
  destruct (Rle_lt_dec 0 x) as [Px|Px], (Rle_lt_dec 0 y) as [Py|Py].
  - rewrite <- Ax, <- Ay by lra. now f_equal.
  - exfalso. assert (0 <= sin x) by (apply sin_ge_0; lra). assert (sin y < 0).
    { assert (0 < sin (- y)) by (apply sin_gt_0; lra). rewrite sin_neg in *. lra. } lra.
  - exfalso. assert (0 <= sin y) by (apply sin_ge_0; lra). assert (sin x < 0).
    { assert (0 < sin (- x)) by (apply sin_gt_0; lra). rewrite sin_neg in *. lra. } lra.
  - assert (- x = - y); [|lra]. rewrite <- Bx, <- By by lra. now f_equal.
Qed.

Lemma heading_rot x : - PI < x <= PI -> heading (rot_of x) = x.
Proof. intros H. apply angle_unique; [apply heading_bounds|exact H|apply rot_heading]. Qed.

Lemma rot_add x y : rot_mul (rot_of x) (rot_of y) = rot_of (x + y).
Proof. apply rot2_ext; cbn; [rewrite cos_plus|rewrite sin_plus]; ring. Qed.
Lemma rot_opp x : rot_inv (rot_of x) = rot_of (- x).
Proof. apply rot2_ext; cbn; [now rewrite cos_neg|now rewrite sin_neg]. Qed.

(** The exponential: the pose after moving for one unit of time with the twist [w]
    in body coordinates.  (gtsam::Pose2::Expmap, called in SlerpSE2Curve.cpp line 175.) *)
Definition se2_exp (w : twist2) : pose2 :=
  let a := w2_w w in
  if Req_EM_T a 0 then Pose2 (rot_of 0) (w2_x w) (w2_y w)
  else Pose2 (rot_of a) ((sin a * w2_x w - (1 - cos a) * w2_y w) / a) (((1 - cos a) * w2_x w + sin a * w2_y w) / a).

(** The logarithm: the twist with angular velocity in (-PI, PI].  (gtsam::Pose2::Logmap,
    called in SlerpSE2Curve.cpp line 173.) *)
Definition se2_log (p : pose2) : twist2 :=
  let a := heading (p2_rot p) in
  if Req_EM_T a 0 then Twist2 (p2_x p) (p2_y p) 0
  else let d := 2 * (1 - cos a) in
    Twist2 (a * (sin a * p2_x p + (1 - cos a) * p2_y p) / d) (a * (sin a * p2_y p - (1 - cos a) * p2_x p) / d) a.

(** SlerpSE2Curve.cpp line 174, [log_T_A_B*alpha]. *)
Definition se2_scale (w : twist2) (s : R) : twist2 := Twist2 (w2_x w * s) (w2_y w * s) (w2_w w * s).

(** The exponential of a multiple, without the case of zero angle twice. *)
Lemma exp_turning w s : w2_w w <> 0 -> se2_exp (se2_scale w s) =
  let a := w2_w w in
  Pose2 (rot_of (a * s)) ((sin (a * s) * w2_x w - (1 - cos (a * s)) * w2_y w) / a)
    (((1 - cos (a * s)) * w2_x w + sin (a * s) * w2_y w) / a).
Proof.
  intros Ha. unfold se2_exp, se2_scale. cbn [w2_w w2_x w2_y]. cbv zeta. set (a := w2_w w) in *.
  destruct (Req_EM_T (a * s) 0) as [E|E].
  - assert (s = 0) as ->. { apply Rmult_integral in E as [E|E]; [contradiction|exact E]. }
    rewrite !Rmult_0_r. rewrite cos_0, sin_0. f_equal; field; exact Ha.
  - assert (s <> 0) by (intros ->; rewrite Rmult_0_r in E; congruence). f_equal; field; auto.
Qed.

Lemma exp_straight w s : w2_w w = 0 -> se2_exp (se2_scale w s) = Pose2 (rot_of 0) (w2_x w * s) (w2_y w * s).
Proof.
  intros Ha. unfold se2_exp, se2_scale. cbn [w2_w w2_x w2_y]. rewrite Ha, Rmult_0_l.
  destruct (Req_EM_T 0 0) as [_|E]; [reflexivity|congruence].
Qed.

Lemma cos_less a : - PI < a <= PI -> a <> 0 -> cos a < 1.
Proof.
  intros B N. destruct (COS_bound a) as [_ U]. destruct (Req_dec (cos a) 1) as [E|E]; [|lra]. exfalso. apply N.
  apply angle_unique; [exact B| |]; [pose proof PI_RGT_0; lra|].
  apply rot2_ext; cbn; [now rewrite cos_0|]. rewrite sin_0.
  pose proof (cos_sin_unit a) as Q. rewrite E in Q. nra.
Qed.

Lemma log_w p : w2_w (se2_log p) = heading (p2_rot p).
Proof. unfold se2_log. cbv zeta. now destruct (Req_EM_T (heading (p2_rot p)) 0) as [E|E]. Qed.

Lemma scale_one w : se2_scale w 1 = w.
Proof. destruct w. unfold se2_scale. simpl. f_equal; ring. Qed.
Lemma scale_scale w a b : se2_scale (se2_scale w a) b = se2_scale w (a * b).
Proof. unfold se2_scale. simpl. f_equal; ring. Qed.

Lemma exp_log_inverse p : se2_exp (se2_log p) = p.
Proof.
  rewrite <- (scale_one (se2_log p)). destruct (Req_EM_T (heading (p2_rot p)) 0) as [E|E].
  - rewrite exp_straight by (now rewrite log_w). unfold se2_log. rewrite E.
    destruct (Req_EM_T 0 0) as [_|X]; [|congruence]. cbn [w2_x w2_y].
    pose proof (rot_heading (p2_rot p)) as Hr. rewrite E in Hr. rewrite Hr, !Rmult_1_r. now destruct p.
  - rewrite exp_turning by (now rewrite log_w). cbv zeta. rewrite log_w. unfold se2_log. cbv zeta.
    destruct (Req_EM_T (heading (p2_rot p)) 0) as [X|_]; [congruence|]. cbn [w2_x w2_y].
    pose proof (rot_heading (p2_rot p)) as Hr. pose proof (cos_less _ (heading_bounds _) E) as L.
    set (a := heading (p2_rot p)) in *. rewrite Rmult_1_r. rewrite Hr.
    pose proof (cos_sin_unit a) as U. destruct p as [r x y]. cbn [p2_rot p2_x p2_y] in *.
    assert (D : 1 - cos a <> 0) by lra.
    assert (Q : sin a * sin a = (1 - cos a) * (1 + cos a)) by lra.
    f_equal.
    + apply (Rmult_eq_reg_r (2 * (1 - cos a))); [|lra].
      transitivity ((sin a * sin a) * x + (1 - cos a) * (1 - cos a) * x); [field; auto|]. rewrite Q. ring.
    + apply (Rmult_eq_reg_r (2 * (1 - cos a))); [|lra].
      transitivity ((sin a * sin a) * y + (1 - cos a) * (1 - cos a) * y); [field; auto|]. rewrite Q. ring.
Qed.

(** The logarithm finds a twist again whose angle is in its range. *)
Lemma log_exp_inverse w : - PI < w2_w w <= PI -> se2_log (se2_exp w) = w.
Proof.
  intros B. destruct w as [x y a]. cbn [w2_w] in B. destruct (Req_EM_T a 0) as [E|E].
  - subst a. unfold se2_exp. cbn [w2_w w2_x w2_y]. destruct (Req_EM_T 0 0) as [_|X]; [|congruence].
    unfold se2_log. cbn [p2_rot p2_x p2_y]. rewrite heading_rot by exact B. destruct (Req_EM_T 0 0) as [_|X]; [|congruence].
    reflexivity.
  - unfold se2_exp. cbn [w2_w w2_x w2_y]. cbv zeta. destruct (Req_EM_T a 0) as [X|_]; [congruence|].
    unfold se2_log. cbn [p2_rot p2_x p2_y]. rewrite heading_rot by exact B. cbv zeta.
    destruct (Req_EM_T a 0) as [X|_]; [congruence|].
    pose proof (cos_less a B E) as L. pose proof (cos_sin_unit a) as U.
    assert (D : 1 - cos a <> 0) by lra.
    assert (Q : sin a * sin a = (1 - cos a) * (1 + cos a)) by lra.
    f_equal.
    + apply (Rmult_eq_reg_r (2 * (1 - cos a))); [|lra].
      transitivity ((sin a * sin a) * x + (1 - cos a) * (1 - cos a) * x); [field; auto|]. rewrite Q. ring.
    + apply (Rmult_eq_reg_r (2 * (1 - cos a))); [|lra].
      transitivity ((sin a * sin a) * y + (1 - cos a) * (1 - cos a) * y); [field; auto|]. rewrite Q. ring.
Qed.

Theorem se2_exp_log : exp_log se2_exp se2_log se2_scale.
Proof.
  split.
  - intros p. rewrite scale_one. apply exp_log_inverse.
  - intros w s t. cbn [gmul pose2_GroupOps]. destruct (Req_EM_T (w2_w w) 0) as [E|E].
    + rewrite !exp_straight by exact E.
      apply pose2_ext; cbn; unfold turn_x, turn_y; cbn; rewrite ?cos_0, ?sin_0; ring.
    + rewrite !exp_turning by exact E. cbv zeta. set (a := w2_w w) in *. rewrite Rmult_plus_distr_l.
      apply pose2_ext; cbn; unfold turn_x, turn_y; cbn; rewrite ?cos_plus, ?sin_plus; try ring; field; exact E.
  - intros s. cbn [gone pose2_GroupOps]. assert (H0 : heading (p2_rot pose2_one) = 0).
    { apply heading_rot. pose proof PI_RGT_0. lra. }
    rewrite exp_straight by (now rewrite log_w). unfold se2_log. rewrite H0.
    destruct (Req_EM_T 0 0) as [_|X]; [|congruence]. cbn. unfold pose2_one. f_equal; ring.
Qed.
