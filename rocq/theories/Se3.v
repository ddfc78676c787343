(** * Poses in space, their exponential and logarithm, over the reals

    SemiDiscreteSE3Curve.cpp lines 165-169 (and SlerpSE3Curve.cpp lines 177-181, a comment)
    call invertAndComposeImplementation, transformationLogImplementation,
    transformationExpImplementation and composeImplementation of kindr::minimal and
    gtsam, which are not part of the repository.  Composition and inverse are those of
    rigid motions.  The code documents (line 164) exponential and logarithm of the group
    of poses, [se3_exp] and [se3_log]; as the library could also apply exponential and
    logarithm to the rotation alone and leave the position as it is, [rp_exp] and
    [rp_log] are given beside them.
    Simplifications: real numbers; the series of the libraries for small angles are
    replaced by the limit at the angle 0 only; a rotation is represented by the one of
    its two unit quaternions whose first component that is not 0 is positive. *)

From Coquelicot Require Import Coquelicot.
From Coq Require Import List Reals Lra Lia Bool Eqdep_dec.
From Verif Require Import Base Num HermiteE3 HermiteSpec HermiteE3Proofs Quat QuatSpec QuatProofs QuatLog Discrete DiscreteSpec.
Import ListNotations.
Local Open Scope R_scope.

(** ** Rotations *)

(** The first component that is not zero is positive.
    Not in the source: selects the representative. *)
Definition front (q : quat R) : bool :=
  if Rlt_dec 0 (qw q) then true else if Rlt_dec (qw q) 0 then false
  else if Rlt_dec 0 (qx q) then true else if Rlt_dec (qx q) 0 then false
  else if Rlt_dec 0 (qy q) then true else if Rlt_dec (qy q) 0 then false
  else if Rlt_dec 0 (qz q) then true else false.

(** The one of [q] and [- q] to represent a rotation.
    Not in the source: selects the representative. *)
Definition upright (q : quat R) : quat R := if front q then q else qneg q.

(** A rotation (kindr::minimal::RotationQuaternion). SemiDiscreteSE3Curve.cpp lines 160-169. *)
Record rot3 := Rot3 { r3 : quat R; r3_unit : unit_quat r3; r3_front : front r3 = true }.

Lemma front_neg q : unit_quat q -> front (qneg q) = negb (front q).
Proof.
  intros U. unfold front, unit_quat in *. cbn [qneg qw qx qy qz].
  repeat match goal with |- context [Rlt_dec ?a ?b] => destruct (Rlt_dec a b) end; try reflexivity; try lra.
  exfalso. assert (qw q = 0) by lra. assert (qx q = 0) by lra. assert (qy q = 0) by lra. assert (qz q = 0) by lra.
  rewrite H, H0, H1, H2 in U. lra.
Qed.

Lemma upright_same q : same_rotation (upright q) q.
Proof. unfold upright, same_rotation. destruct (front q); auto. Qed.
Lemma upright_unit q : unit_quat q -> unit_quat (upright q).
Proof. intros U. unfold upright. destruct (front q); auto. now apply unit_neg. Qed.
Lemma upright_front q : unit_quat q -> front (upright q) = true.
Proof. intros U. unfold upright. destruct (front q) eqn:E; auto. now rewrite front_neg, E. Qed.
Lemma upright_neg q : unit_quat q -> upright (qneg q) = upright q.
Proof. intros U. unfold upright. rewrite front_neg by exact U. destruct (front q); cbn [negb]; [apply qneg_neg|reflexivity]. Qed.
Lemma upright_same_eq a b : unit_quat a -> unit_quat b -> same_rotation a b -> upright a = upright b.
Proof. intros _ Ub [->| ->]; [reflexivity|now apply upright_neg]. Qed.
Lemma upright_id q : front q = true -> upright q = q.
Proof. unfold upright. now intros ->. Qed.

(** The rotation of a unit quaternion. Not in the source: builds the record. *)
Definition rot3_of (q : quat R) (U : unit_quat q) : rot3 := Rot3 (upright q) (upright_unit q U) (upright_front q U).

Lemma rot3_ext (a b : rot3) : r3 a = r3 b -> a = b.
Proof.
  destruct a as [q U F], b as [q' U' F']. simpl. intros ->. f_equal; apply UIP_dec; [apply Req_EM_T|apply bool_dec].
Qed.

Lemma rot3_same (a b : rot3) : same_rotation (r3 a) (r3 b) -> a = b.
Proof.
  intros H. apply rot3_ext. rewrite <- (upright_id _ (r3_front a)), <- (upright_id _ (r3_front b)).
  apply upright_same_eq; auto; apply r3_unit.
Qed.

(** A rotation applied to a vector. Part of SemiDiscreteSE3Curve.cpp line 169. *)
Definition turned (r : rot3) (v : vec3 R) : vec3 R := rotation_matrix (r3 r) v.

(** Rotations are equal iff they act in the same way. *)
Lemma rot3_acts (a b : rot3) : (forall v, turned a v = turned b v) -> a = b.
Proof. intros H. apply rot3_same. apply rotation_same; auto; apply r3_unit. Qed.

(** operator* and inverse(). Not in the source: the identity. *)
Definition rot3_one : rot3 := rot3_of qone unit_one.
(** SemiDiscreteSE3Curve.cpp lines 165 and 169. *)
Definition rot3_mul (a b : rot3) : rot3 := rot3_of (qmul (r3 a) (r3 b)) (unit_mul _ _ (r3_unit a) (r3_unit b)).
(** SemiDiscreteSE3Curve.cpp line 165. *)
Definition rot3_inv (a : rot3) : rot3 := rot3_of (qconj (r3 a)) (unit_conj _ (r3_unit a)).

Lemma turned_of q U v : turned (rot3_of q U) v = rotation_matrix q v.
Proof. unfold turned. cbn [r3 rot3_of]. apply same_rotation_matrix, upright_same. Qed.
Lemma turned_one v : turned rot3_one v = v.
Proof. unfold rot3_one. rewrite turned_of. apply rotation_one. Qed.
Lemma turned_mul a b v : turned (rot3_mul a b) v = turned a (turned b v).
Proof. unfold rot3_mul. rewrite turned_of. apply rotation_mul. Qed.
Lemma turned_inv_l a v : turned (rot3_inv a) (turned a v) = v.
Proof. unfold rot3_inv. rewrite turned_of. apply rotation_inv'. apply r3_unit. Qed.
Lemma turned_inv_r a v : turned a (turned (rot3_inv a) v) = v.
Proof. unfold rot3_inv. rewrite turned_of. apply rotation_inv. apply r3_unit. Qed.
Lemma turned_add a v w : turned a (vadd v w) = vadd (turned a v) (turned a w).
Proof. unfold turned. generalize (r3 a). qring. Qed.
Lemma turned_scale a s v : turned a (vscale s v) = vscale s (turned a v).
Proof. apply rotation_scale. Qed.

Lemma rot3_assoc a b c : rot3_mul a (rot3_mul b c) = rot3_mul (rot3_mul a b) c.
Proof. apply rot3_acts. intros v. now rewrite !turned_mul. Qed.
Lemma rot3_one_l a : rot3_mul rot3_one a = a.
Proof. apply rot3_acts. intros v. now rewrite turned_mul, turned_one. Qed.
Lemma rot3_one_r a : rot3_mul a rot3_one = a.
Proof. apply rot3_acts. intros v. now rewrite turned_mul, turned_one. Qed.
Lemma rot3_inv_l a : rot3_mul (rot3_inv a) a = rot3_one.
Proof. apply rot3_acts. intros v. now rewrite turned_mul, turned_one, turned_inv_l. Qed.
Lemma rot3_inv_r a : rot3_mul a (rot3_inv a) = rot3_one.
Proof. apply rot3_acts. intros v. now rewrite turned_mul, turned_one, turned_inv_r. Qed.

(** ** Poses *)

(** A pose (kindr::minimal::QuatTransformationTemplate<double>, SemiDiscreteSE3Curve.hpp line 209). *)
Record pose3 := Pose3 { p3_rot : rot3; p3_pos : vec3 R }.

Lemma pose3_ext (a b : pose3) : p3_rot a = p3_rot b -> p3_pos a = p3_pos b -> a = b.
Proof. destruct a, b. simpl. now intros -> ->. Qed.

(** Poses compose like rigid motions: x -> R x + t. Not in the source: the identity. *)
Definition pose3_one : pose3 := Pose3 rot3_one (V3 0 0 0).
(** SemiDiscreteSE3Curve.cpp lines 165 and 169. *)
Definition pose3_mul (a b : pose3) : pose3 :=
  Pose3 (rot3_mul (p3_rot a) (p3_rot b)) (vadd (p3_pos a) (turned (p3_rot a) (p3_pos b))).
(** SemiDiscreteSE3Curve.cpp line 165. *)
Definition pose3_inv (a : pose3) : pose3 :=
  Pose3 (rot3_inv (p3_rot a)) (vneg (turned (rot3_inv (p3_rot a)) (p3_pos a))).

(** A pose applied to a point. Not in the source: used in statements. *)
Definition moved (a : pose3) (x : vec3 R) : vec3 R := vadd (turned (p3_rot a) x) (p3_pos a).

#[global] Instance pose3_GroupOps : GroupOps pose3 := { gone := pose3_one; gmul := pose3_mul; ginv := pose3_inv }.

#[global] Instance pose3_GroupLaws : GroupLaws pose3.
Proof.
  split; cbn [gmul ginv gone pose3_GroupOps].
  - intros a b c. apply pose3_ext; cbn [p3_rot p3_pos pose3_mul]; [apply rot3_assoc|].
    rewrite turned_add, turned_mul. set (x := turned _ (turned _ _)). set (y := turned _ _). generalize x, y, (p3_pos a). qring.
  - intros a. apply pose3_ext; cbn [p3_rot p3_pos pose3_mul pose3_one]; [apply rot3_one_l|].
    rewrite turned_one. generalize (p3_pos a). qring.
  - intros a. apply pose3_ext; cbn [p3_rot p3_pos pose3_mul pose3_inv pose3_one]; [apply rot3_inv_l|].
    generalize (turned (rot3_inv (p3_rot a)) (p3_pos a)). qring.
Qed.

(** A twist (gtsam::Vector6): velocity and angular velocity. SemiDiscreteSE3Curve.cpp line 166. *)
Record twist3 := Twist3 { w3_v : vec3 R; w3_w : vec3 R }.
(** vectorScalingImplementation<6>, SemiDiscreteSE3Curve.cpp line 167. *)
Definition se3_scale (w : twist3) (s : R) : twist3 := Twist3 (vscale s (w3_v w)) (vscale s (w3_w w)).

(** ** Exponential and logarithm of rotations *)

(** The part of SemiDiscreteSE3Curve.cpp line 168 for the rotation. *)
Definition so3_exp (w : vec3 R) : rot3 := rot3_of (qexp w) (qexp_unit w).
(** The part of SemiDiscreteSE3Curve.cpp line 166 for the rotation. *)
Definition so3_log (r : rot3) : vec3 R := std_log (r3 r).

Lemma so3_exp_log r : so3_exp (so3_log r) = r.
Proof.
  apply rot3_same. unfold so3_exp, so3_log. cbn [r3 rot3_of].
  destruct std_log_exact as [_ H]. specialize (H (r3 r) (r3_unit r)). cbn [k_log std_kindr] in H.
  destruct (upright_same (qexp (std_log (r3 r)))) as [->| ->]; [exact H|].
  destruct H as [->| ->]; [right; reflexivity|left; apply qneg_neg].
Qed.

Lemma so3_exp_add w s t : rot3_mul (so3_exp (vscale s w)) (so3_exp (vscale t w)) = so3_exp (vscale (s + t) w).
Proof. apply rot3_acts. intros v. unfold so3_exp. now rewrite turned_mul, !turned_of, <- qexp_add, rotation_mul. Qed.

Lemma so3_exp_zero : so3_exp (V3 0 0 0) = rot3_one.
Proof. apply rot3_acts. intros v. unfold so3_exp, rot3_one. now rewrite !turned_of, qexp_zero. Qed.

Lemma so3_log_exp w : vnorm w < PI -> so3_log (so3_exp w) = w.
Proof.
  intros H. unfold so3_log, so3_exp. cbn [r3 rot3_of]. rewrite upright_id.
  - exact (std_log_principal w H).
  - unfold front. pose proof (vnorm_pos w). assert (0 < cos (vnorm w / 2)) by (apply cos_gt_0; lra).
    unfold qexp. cbn [qw]. destruct (Rlt_dec 0 (cos (vnorm w / 2))); [reflexivity|contradiction].
Qed.

(** The quaternion of a rotation has a real part that is not negative. *)
Lemma front_real r : 0 <= qw (r3 r) <= 1.
Proof.
  pose proof (r3_unit r) as U. pose proof (r3_front r) as F. unfold front in F. unfold unit_quat in U.
  split; [|nra]. destruct (Rlt_dec 0 (qw (r3 r))); [lra|]. destruct (Rlt_dec (qw (r3 r)) 0); [discriminate|lra].
Qed.

(** The angle of a rotation. Not in the source: used in proofs and statements. *)
Definition angle (r : rot3) : R := vnorm (so3_log r).

Lemma angle_acos r : angle r = 2 * acos (qw (r3 r)).
Proof.
  unfold angle, so3_log, std_log. pose proof (front_real r) as B. pose proof (imag_norm _ (r3_unit r)) as N.
  pose proof (vnorm_pos (qimag (r3 r))) as P.
  destruct (Req_EM_T (vnorm (qimag (r3 r))) 0) as [Z|Z].
  - rewrite Z in N. assert (qw (r3 r) = 1) as -> by nra. rewrite acos_1. unfold vnorm. cbn. numR.
    rewrite !Rmult_0_r, !Rplus_0_r. apply sqrt_0.
  - destruct (Rlt_dec (qw (r3 r)) 0) as [L|L]; [lra|]. rewrite vnorm_scale, (Rabs_pos_eq (qw _)), Rmult_1_r by lra.
    pose proof (acos_bound (qw (r3 r))). rewrite Rabs_pos_eq; [field; lra|]. apply Rdiv_le_0_compat; lra.
Qed.

Lemma angle_bounds r : 0 <= angle r <= PI.
Proof.
  rewrite angle_acos. pose proof (front_real r) as B. destruct (acos_bound (qw (r3 r))) as [L _]. split; [lra|].
  pose proof PI_RGT_0 as Hp. assert (acos (qw (r3 r)) <= PI / 2); [|lra].
  apply Rnot_lt_le. intros X. pose proof (acos_bound (qw (r3 r))) as [_ U].
  pose proof (cos_acos (qw (r3 r)) ltac:(lra)) as C. assert (cos (acos (qw (r3 r))) < 0); [|lra].
  apply cos_lt_0; lra.
Qed.

(** ** Rotations about an axis *)

(** Not in the source: used in proofs and statements. *)
Definition dot (u v : vec3 R) : R := vx u * vx v + vy u * vy v + vz u * vz v.

(** The rotation about the axis [u] by the angle [a] (Rodrigues' formula).
    Not in the source: used in proofs and statements. *)
Definition about (u : vec3 R) (a : R) (v : vec3 R) : vec3 R :=
  vadd (vadd (vscale (cos a) v) (vscale (sin a) (cross u v))) (vscale ((1 - cos a) * dot u v) u).

Lemma rotation_about u h v : dot u u = 1 ->
  rotation_matrix (Quat (cos h) (sin h * vx u) (sin h * vy u) (sin h * vz u)) v = about u (2 * h) v.
Proof.
  intros U. unfold dot in U. unfold about. rewrite sin_2a. pose proof (sin2_cos2 h) as SC. unfold Rsqr in SC.
  assert (E : cos (2 * h) = cos h * cos h - sin h * sin h) by apply cos_2a. rewrite E.
  replace (1 - (cos h * cos h - sin h * sin h)) with (2 * (sin h * sin h)) by lra. clear E SC.
  set (c := cos h). set (s := sin h). destruct u as [x y z], v as [a b d]. cbn [vx vy vz] in U.
  assert (X : x * x = 1 - y * y - z * z) by lra. clear U.
  apply vec3_ext; intros []; cbn [coord rotation_matrix about vadd vscale cross qw qx qy qz vx vy vz]; unfold dot; cbn [vx vy vz]; numR.
  - transitivity ((c * c + s * s * (x * x) - s * s * y * y - s * s * z * z) * a +
      2 * (s * x * (s * y) - c * (s * z)) * b + 2 * (s * x * (s * z) + c * (s * y)) * d); [ring|].
    transitivity ((c * c - s * s) * a + 2 * s * c * (y * d - z * b) + 2 * (s * s) * ((x * x) * a + (y * b + z * d) * x));
      [rewrite X; ring|ring].
  - transitivity (2 * (s * x * (s * y) + c * (s * z)) * a + (c * c - s * s * (x * x) + s * s * y * y - s * s * z * z) * b +
      2 * (s * y * (s * z) - c * (s * x)) * d); [ring|]. rewrite X. ring.
  - transitivity (2 * (s * x * (s * z) - c * (s * y)) * a + 2 * (s * y * (s * z) + c * (s * x)) * b +
      (c * c - s * s * (x * x) - s * s * y * y + s * s * z * z) * d); [ring|]. rewrite X. ring.
Qed.

(** A rotation vector is an angle and an axis. *)
Lemma axis_of w : exists u, dot u u = 1 /\ w = vscale (vnorm w) u /\
  forall s v, turned (so3_exp (vscale s w)) v = about u (vnorm w * s) v.
Proof.
  destruct (qexp_line w) as (h & u & Ew & U & Eh & E). exists u. split; [exact U|]. split; [now rewrite <- Eh|].
  intros s v. unfold so3_exp. rewrite turned_of, E, rotation_about by exact U. f_equal. rewrite <- Eh. ring.
Qed.

(** ** Exponential and logarithm of poses *)

(** The exponential: the pose after moving for one unit of time with the twist in body
    coordinates.  (transformationExpImplementation, called in SemiDiscreteSE3Curve.cpp line 168.) *)
Definition se3_exp (w : twist3) : pose3 :=
  let v := w3_v w in let o := w3_w w in let a := vnorm o in
  Pose3 (so3_exp o)
    (if Req_EM_T a 0 then v
     else vadd v (vadd (vscale ((1 - cos a) / (a * a)) (cross o v)) (vscale ((a - sin a) / (a * a * a)) (cross o (cross o v))))).

(** The logarithm: the twist with angle at most PI.  (transformationLogImplementation,
    called in SemiDiscreteSE3Curve.cpp line 166.) *)
Definition se3_log (p : pose3) : twist3 :=
  let t := p3_pos p in let o := so3_log (p3_rot p) in let a := vnorm o in
  Twist3
    (if Req_EM_T a 0 then t
     else vadd t (vadd (vscale (- / 2) (cross o t))
            (vscale ((1 - a * sin a / (2 * (1 - cos a))) / (a * a)) (cross o (cross o t))))) o.

(** The other reading of lines 166-168: position and rotation vector side by side. *)
Definition rp_exp (w : twist3) : pose3 := Pose3 (so3_exp (w3_w w)) (w3_v w).
(** SemiDiscreteSE3Curve.cpp line 166, for the rotation alone. *)
Definition rp_log (p : pose3) : twist3 := Twist3 (p3_pos p) (so3_log (p3_rot p)).

(** Vectors in the coordinates v, u x v, u. Not in the source: used in proofs. *)
Definition comb (u v : vec3 R) (al be ga : R) : vec3 R :=
  vadd (vadd (vscale al v) (vscale be (cross u v))) (vscale ga u).

Lemma comb_comb u v al be ga al' be' ga' : dot u u = 1 ->
  comb u (comb u v al' be' ga') al be ga =
  comb u v (al * al' - be * be') (al * be' + be * al') (ga + al * ga' + be * be' * dot u v).
Proof.
  intros U. transitivity (comb u v (al * al' - be * be' * dot u u) (al * be' + be * al') (ga + al * ga' + be * be' * dot u v)).
  - clear U. unfold comb, dot. qring.
  - now rewrite U, Rmult_1_r.
Qed.

Lemma dot_comb u v al be ga : dot u u = 1 -> dot u (comb u v al be ga) = al * dot u v + ga.
Proof.
  intros U. transitivity (al * dot u v + ga * dot u u); [|rewrite U; ring].
  unfold comb, dot. cbn [vadd vscale cross vx vy vz]. numR. ring.
Qed.

Lemma about_comb u a v : about u a v = comb u v (cos a) (sin a) ((1 - cos a) * dot u v).
Proof. reflexivity. Qed.

Lemma comb_add u v al be ga al' be' ga' :
  vadd (comb u v al be ga) (comb u v al' be' ga') = comb u v (al + al') (be + be') (ga + ga').
Proof. unfold comb. qring. Qed.

Lemma comb_eq u v al be ga al' be' ga' : al = al' -> be = be' -> ga = ga' -> comb u v al be ga = comb u v al' be' ga'.
Proof. now intros -> -> ->. Qed.

Lemma comb_scale u v s al be ga : vscale s (comb u v al be ga) = comb u v (s * al) (s * be) (s * ga).
Proof. unfold comb. qring. Qed.

(** The formulas for the displacement, in these coordinates. *)
Lemma series_comb u v a al be ga : dot u u = 1 ->
  vadd (vscale al v) (vadd (vscale be (cross (vscale a u) v)) (vscale ga (cross (vscale a u) (cross (vscale a u) v)))) =
  comb u v (al - ga * a * a) (be * a) (ga * a * a * dot u v).
Proof.
  intros U. transitivity (comb u v (al - ga * a * a * dot u u) (be * a) (ga * a * a * dot u v)).
  - clear U. unfold comb, dot. qring.
  - now rewrite U, Rmult_1_r.
Qed.

(** The displacement of a twist whose angular velocity is [a u], after the time [s].
    Not in the source: used in proofs. *)
Definition displacement (u v : vec3 R) (a s : R) : vec3 R :=
  comb u v (sin (a * s) / a) ((1 - cos (a * s)) / a) ((s - sin (a * s) / a) * dot u v).

Lemma vnorm_axis a u : dot u u = 1 -> vnorm (vscale a u) = Rabs a.
Proof.
  intros U. rewrite vnorm_scale. unfold vnorm. unfold dot in U. rewrite U, sqrt_1. ring.
Qed.

Lemma se3_exp_turning u v a s : dot u u = 1 -> a <> 0 ->
  se3_exp (se3_scale (Twist3 v (vscale a u)) s) = Pose3 (so3_exp (vscale s (vscale a u))) (displacement u v a s).
Proof.
  intros U Ha. unfold se3_exp, se3_scale. cbn [w3_v w3_w]. cbv zeta. f_equal. rewrite vscale_vscale, vnorm_axis by exact U.
  unfold displacement. destruct (Req_EM_T (Rabs (s * a)) 0) as [E|E].
  - assert (s = 0) as ->.
    { destruct (Req_dec s 0) as [X|X]; [exact X|]. exfalso. apply (Rabs_no_R0 (s * a)); [|exact E]. now apply Rmult_integral_contrapositive. }
    rewrite Rmult_0_r, cos_0, sin_0. replace (0 / a) with 0 by (field; exact Ha). replace ((1 - 1) / a) with 0 by (field; exact Ha).
    unfold comb. qring.
  - assert (Hs : s <> 0) by (intros ->; rewrite Rmult_0_l, Rabs_R0 in E; lra).
    rewrite <- (vscale_1 (vscale s v)) at 1. rewrite series_comb by exact U.
    assert (X : forall x, cos (Rabs x) = cos x) by (intros x; unfold Rabs; destruct (Rcase_abs x); [apply cos_neg|reflexivity]).
    assert (Y : forall x, Rabs x * sin (Rabs x) = x * sin x).
    { intros x. unfold Rabs. destruct (Rcase_abs x); [rewrite sin_neg; ring|reflexivity]. }
    assert (Z : forall x, Rabs x * Rabs x = x * x) by (intros x; unfold Rabs; destruct (Rcase_abs x); ring).
    assert (W : comb u (vscale s v) = fun al be ga => comb u (vscale s v) al be ga) by reflexivity.
    assert (Q : forall al be ga, comb u (vscale s v) al be ga = comb u v (al * s) (be * s) ga) by (intros; unfold comb; qring).
    rewrite Q. replace (dot u (vscale s v)) with (s * dot u v) by (unfold dot; cbn; numR; ring).
    replace (a * s) with (s * a) by ring. set (x := s * a) in *.
    assert (Hx : x <> 0) by (intros X0; rewrite X0, Rabs_R0 in E; lra).
    assert (T : (Rabs x - sin (Rabs x)) / (Rabs x * Rabs x * Rabs x) = (x - sin x) / (x * x * x)).
    { transitivity ((Rabs x * Rabs x - Rabs x * sin (Rabs x)) / ((Rabs x * Rabs x) * (Rabs x * Rabs x))); [field; exact E|].
      rewrite Y, Z. field. exact Hx. }
    rewrite T, X, Z. assert (Ex : a = x / s) by (unfold x; field; exact Hs).
    apply comb_eq; rewrite Ex; field; auto.
Qed.

Lemma se3_exp_straight w s : w3_w w = V3 0 0 0 -> se3_exp (se3_scale w s) = Pose3 rot3_one (vscale s (w3_v w)).
Proof.
  intros E. unfold se3_exp, se3_scale. cbn [w3_v w3_w]. rewrite E. cbv zeta.
  assert (X : vscale s (V3 0 0 0) = V3 0 0 0 :> vec3 R) by qring. rewrite X, so3_exp_zero.
  destruct (Req_EM_T (vnorm (V3 0 0 0)) 0) as [_|Y]; [reflexivity|]. exfalso. apply Y.
  unfold vnorm. cbn. rewrite !Rmult_0_r, !Rplus_0_r. apply sqrt_0.
Qed.

(** A twist is straight, or turns about an axis. *)
Lemma twist_cases w : w3_w w = V3 0 0 0 \/
  exists u a, dot u u = 1 /\ a = vnorm (w3_w w) /\ 0 < a /\ w = Twist3 (w3_v w) (vscale a u).
Proof.
  destruct w as [v o]. cbn [w3_w w3_v]. destruct (Req_EM_T (vnorm o) 0) as [Z|Z]; [left; now apply vnorm_zero|right].
  destruct (axis_of o) as (u & U & E & _). exists u, (vnorm o). pose proof (vnorm_pos o).
  split; [exact U|]. split; [reflexivity|]. split; [lra|]. now rewrite <- E.
Qed.

Lemma so3_about u a s v : dot u u = 1 -> turned (so3_exp (vscale s (vscale a u))) v = about u (a * s) v.
Proof.
  intros U. destruct (qexp_line u) as (h & u' & Eu & U' & Eh & E).
  assert (N : vnorm u = 1) by (unfold vnorm; unfold dot in U; rewrite U; apply sqrt_1). rewrite N in Eh.
  assert (X : u = u'). { rewrite Eu, Eh. apply vscale_1. }
  unfold so3_exp. rewrite turned_of, vscale_vscale, E, <- X, rotation_about by exact U. f_equal.
  replace h with (/ 2) by lra. field.
Qed.

Lemma vscale_zero_twist w : se3_scale w 1 = w.
Proof. destruct w. unfold se3_scale. cbn. now rewrite !vscale_1. Qed.

Lemma se3_exp_add w s t : se3_exp (se3_scale w (s + t)) = gmul (se3_exp (se3_scale w s)) (se3_exp (se3_scale w t)).
Proof.
  cbn [gmul pose3_GroupOps]. destruct (twist_cases w) as [E|(u & a & U & _ & Ha & E)].
  - rewrite !se3_exp_straight by exact E. apply pose3_ext; cbn [p3_rot p3_pos pose3_mul]; [now rewrite rot3_one_l|].
    rewrite turned_one. generalize (w3_v w). qring.
  - rewrite E. set (v := w3_v w). rewrite !se3_exp_turning by (auto; lra).
    apply pose3_ext; cbn [p3_rot p3_pos pose3_mul]; [now rewrite so3_exp_add|].
    rewrite so3_about by exact U. unfold displacement. rewrite about_comb, comb_comb, dot_comb, comb_add by exact U.
    rewrite Rmult_plus_distr_l, sin_plus, cos_plus. apply comb_eq; field; lra.
Qed.

Lemma cos_below a : 0 < a <= PI -> cos a < 1.
Proof.
  intros H. rewrite <- cos_0. apply cos_decreasing_1; pose proof PI_RGT_0; lra.
Qed.

Lemma se3_exp_log_inverse p : se3_exp (se3_log p) = p.
Proof.
  destruct (twist_cases (Twist3 (p3_pos p) (so3_log (p3_rot p)))) as [E|(u & a & U & Ea & Ha & E)]; cbn [w3_w w3_v] in *.
  - rewrite <- (vscale_zero_twist (se3_log p)), se3_exp_straight by exact E.
    apply pose3_ext; cbn [p3_rot p3_pos].
    + rewrite <- (so3_exp_log (p3_rot p)), E. symmetry. apply so3_exp_zero.
    + unfold se3_log. cbv zeta. cbn [w3_v]. rewrite E. destruct (Req_EM_T _ 0) as [_|Y]; [apply vscale_1|].
      exfalso. apply Y. unfold vnorm. cbn. rewrite !Rmult_0_r, !Rplus_0_r. apply sqrt_0.
  - injection E as Eo. pose proof (angle_bounds (p3_rot p)) as B. unfold angle in B. rewrite <- Ea in B.
    pose proof (cos_below a (conj Ha (proj2 B))) as L.
    unfold se3_log. cbv zeta. rewrite <- Ea. destruct (Req_EM_T a 0) as [X|_]; [lra|].
    rewrite Eo. set (t := p3_pos p) in *. rewrite <- (vscale_1 t) at 1. rewrite series_comb by exact U.
    set (k := (1 - a * sin a / (2 * (1 - cos a))) / (a * a)).
    rewrite <- (vscale_zero_twist (Twist3 _ _)), se3_exp_turning by (auto; lra).
    apply pose3_ext; cbn [p3_rot p3_pos].
    + rewrite vscale_1, <- Eo. apply so3_exp_log.
    + unfold displacement. rewrite comb_comb, dot_comb, Rmult_1_r by exact U.
      transitivity (comb u t 1 0 0); [|unfold comb, t; generalize (p3_pos p); qring].
      assert (Q : sin a * sin a = (1 - cos a) * (1 + cos a)).
      { pose proof (sin2_cos2 a) as SC. unfold Rsqr in SC. lra. }
      assert (K : 1 - k * a * a = a * sin a / (2 * (1 - cos a))) by (unfold k; field; lra).
      apply comb_eq.
      * rewrite K. transitivity ((sin a * sin a) / (2 * (1 - cos a)) + (1 - cos a) / 2); [field; lra|]. rewrite Q. field. lra.
      * rewrite K. field. lra.
      * replace (k * a * a) with (1 - a * sin a / (2 * (1 - cos a))) by (rewrite <- K; ring).
        transitivity (dot u t * (1 - (sin a * sin a) / (2 * (1 - cos a)) - (1 - cos a) / 2)); [field; lra|]. rewrite Q. field. lra.
Qed.

(** The logarithm finds a twist again whose angle is below PI. *)
Lemma se3_log_exp_inverse w : vnorm (w3_w w) < PI -> se3_log (se3_exp w) = w.
Proof.
  intros B. destruct (twist_cases w) as [E|(u & a & U & Ea & Ha & E)].
  - rewrite <- (vscale_zero_twist w) at 1. rewrite se3_exp_straight by exact E. unfold se3_log. cbn [p3_rot p3_pos].
    rewrite <- so3_exp_zero, so3_log_exp.
    + destruct w as [v o]. cbn [w3_w w3_v] in *. subst o. f_equal. cbv zeta.
      destruct (Req_EM_T _ 0) as [_|Y]; [apply vscale_1|].
      exfalso. apply Y. unfold vnorm. cbn. rewrite !Rmult_0_r, !Rplus_0_r. apply sqrt_0.
    + now rewrite <- E.
  - set (v := w3_v w) in *. rewrite <- Ea in B. pose proof (cos_below a ltac:(lra)) as L. rewrite E at 1.
    rewrite <- (vscale_zero_twist (Twist3 _ _)), se3_exp_turning by (auto; lra). unfold se3_log. cbn [p3_rot p3_pos].
    rewrite vscale_1, so3_log_exp by (rewrite vnorm_axis, Rabs_pos_eq by (auto; lra); lra).
    rewrite vnorm_axis, Rabs_pos_eq by (auto; lra). cbv zeta. destruct (Req_EM_T a 0) as [X|_]; [lra|].
    rewrite E at 1. f_equal. set (d := displacement u v a 1). rewrite <- (vscale_1 d) at 1. rewrite series_comb by exact U.
    set (k := (1 - a * sin a / (2 * (1 - cos a))) / (a * a)). unfold d, displacement.
    rewrite comb_comb, dot_comb, Rmult_1_r by exact U.
    transitivity (comb u v 1 0 0); [|unfold comb; generalize v; qring].
    assert (Q : sin a * sin a = (1 - cos a) * (1 + cos a)).
    { pose proof (sin2_cos2 a) as SC. unfold Rsqr in SC. lra. }
    assert (K : 1 - k * a * a = a * sin a / (2 * (1 - cos a))) by (unfold k; field; lra).
    apply comb_eq.
    + rewrite K. transitivity ((sin a * sin a) / (2 * (1 - cos a)) + (1 - cos a) / 2); [field; lra|]. rewrite Q. field. lra.
    + rewrite K. field. lra.
    + replace (k * a * a) with (1 - a * sin a / (2 * (1 - cos a))) by (rewrite <- K; ring).
      transitivity (dot u v * (1 - (sin a * sin a) / (2 * (1 - cos a)) - (1 - cos a) / 2)); [field; lra|]. rewrite Q. field. lra.
Qed.

Lemma so3_log_one : so3_log rot3_one = V3 0 0 0.
Proof.
  rewrite <- so3_exp_zero. apply so3_log_exp. unfold vnorm. cbn. rewrite !Rmult_0_r, !Rplus_0_r, sqrt_0. apply PI_RGT_0.
Qed.

Theorem se3_exp_log : exp_log se3_exp se3_log se3_scale.
Proof.
  split.
  - intros p. rewrite vscale_zero_twist. apply se3_exp_log_inverse.
  - apply se3_exp_add.
  - intros s. cbn [gone pose3_GroupOps]. rewrite se3_exp_straight by apply so3_log_one.
    apply pose3_ext; cbn [p3_rot p3_pos pose3_one]; [reflexivity|]. unfold se3_log. cbn [p3_rot p3_pos pose3_one w3_v].
    rewrite so3_log_one. cbv zeta. destruct (Req_EM_T _ 0) as [_|Y]; [qring|].
    exfalso. apply Y. unfold vnorm. cbn. rewrite !Rmult_0_r, !Rplus_0_r. apply sqrt_0.
Qed.
