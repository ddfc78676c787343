(** * A logarithm with the properties assumed of kindr's

    The principal logarithm: the assumptions [exact_kindr], [equivariant_log] and
    [principal_log] are satisfiable together. *)

From Coquelicot Require Import Coquelicot.
From Coq Require Import List Reals Lra Lia Bool.
From Verif Require Import Num HermiteE3 HermiteSpec HermiteE3Proofs Quat QuatSpec QuatProofs.
Local Open Scope R_scope.

Definition std_log (q : quat R) : vec3 R :=
  let s := vnorm (qimag q) in
  if Req_EM_T s 0 then V3 0 0 0
  else let sign := if Rlt_dec (qw q) 0 then -1 else 1 in
       vscale (2 * acos (Rabs (qw q)) / s * sign) (qimag q).

Definition std_kindr : kindr R := Kindr qexp std_log.

Lemma acos_pos x : -1 <= x < 1 -> 0 < acos x.
Proof.
  intros Hx. destruct (acos_bound x) as [L _]. destruct L as [L|E]; auto.
  exfalso. pose proof (cos_acos x ltac:(lra)) as C. rewrite <- E, cos_0 in C. lra.
Qed.

Lemma imag_norm q : unit_quat q -> vnorm (qimag q) * vnorm (qimag q) = 1 - qw q * qw q.
Proof. intros Hu. rewrite vnorm_sqr. unfold unit_quat in Hu. cbn. lra. Qed.

Lemma qexp_log_pos a v : 0 <= a < 1 -> vnorm v = sqrt (1 - a * a) ->
  qexp (vscale (2 * acos a / vnorm v) v) = Quat a (vx v) (vy v) (vz v).
Proof.
  intros Ha Hn.
  assert (Hs : 0 < vnorm v) by (rewrite Hn; apply sqrt_lt_R0; nra).
  assert (Hc : 0 < acos a) by (apply acos_pos; lra).
  assert (En : vnorm (vscale (2 * acos a / vnorm v) v) = 2 * acos a).
  { rewrite vnorm_scale, Rabs_pos_eq; [field; lra|].
    apply Rlt_le. apply Rdiv_lt_0_compat; lra. }
  unfold qexp. rewrite En. destruct (Req_EM_T (2 * acos a) 0) as [X|X]; [lra|].
  replace (2 * acos a / 2) with (acos a) by field. rewrite cos_acos, sin_acos by lra.
  unfold Rsqr. rewrite <- Hn. unfold vscale. cbn [vx vy vz]. numR. f_equal; field; lra.
Qed.

Lemma std_log_exact : exact_kindr std_kindr.
Proof.
  split; [reflexivity|]. intros q Hu. cbn [k_log std_kindr]. unfold std_log.
  pose proof (imag_norm q Hu) as N. pose proof (vnorm_pos (qimag q)) as P.
  assert (B : -1 <= qw q <= 1) by nra.
  destruct (Req_EM_T (vnorm (qimag q)) 0) as [Z|Z].
  - rewrite qexp_zero. apply vnorm_zero in Z as E0. rewrite Z in N.
    assert (Ew : qw q = 1 \/ qw q = -1).
    { assert (X : (qw q - 1) * (qw q + 1) = 0) by lra. destruct (Rmult_integral _ _ X); [left|right]; lra. }
    destruct q as [w x y z]. cbn in *. injection E0 as -> -> ->.
    destruct Ew as [->| ->]; [left|right]; apply quat_ext; cbn; ring.
  - assert (Na : vnorm (qimag q) = sqrt (1 - Rabs (qw q) * Rabs (qw q))).
    { rewrite <- Rabs_mult, Rabs_pos_eq by nra. rewrite <- N. now rewrite sqrt_square. }
    assert (Ba : 0 <= Rabs (qw q) < 1).
    { split; [apply Rabs_pos|]. apply Rabs_def1; nra. }
    destruct (Rlt_dec (qw q) 0) as [L|L].
    + right.
      assert (Nn : vnorm (vscale (-1) (qimag q)) = vnorm (qimag q)).
      { rewrite vnorm_scale, Rabs_left by lra. ring. }
      rewrite <- Nn at 1. rewrite <- vscale_vscale, qexp_log_pos by (auto; congruence).
      rewrite Rabs_left by lra. apply quat_ext; cbn; numR; ring.
    + left. rewrite Rmult_1_r, qexp_log_pos by auto. rewrite Rabs_pos_eq by lra. now destruct q.
Qed.

Lemma rotation_norm p v : unit_quat p -> vnorm (rotation_matrix p v) = vnorm v.
Proof.
  intros Hu. unfold vnorm. f_equal. unfold unit_quat in Hu.
  transitivity ((qw p * qw p + qx p * qx p + qy p * qy p + qz p * qz p) *
    (qw p * qw p + qx p * qx p + qy p * qy p + qz p * qz p) * (vx v * vx v + vy v * vy v + vz v * vz v)).
  - unfold rotation_matrix. cbn [vx vy vz]. ring.
  - rewrite Hu. ring.
Qed.

Lemma conjugation_real p q : unit_quat p -> qw (qmul (qmul p q) (qconj p)) = qw q.
Proof.
  intros Hu. unfold unit_quat in Hu.
  transitivity ((qw p * qw p + qx p * qx p + qy p * qy p + qz p * qz p) * qw q).
  - cbn. numR. ring.
  - rewrite Hu. ring.
Qed.

Lemma conjugation_imag p q : qimag (qmul (qmul p q) (qconj p)) = rotation_matrix p (qimag q).
Proof. qring. Qed.

Lemma std_log_equivariant : equivariant_log std_kindr.
Proof.
  intros p q Hp Hq. cbn [k_log std_kindr]. unfold std_log.
  rewrite conjugation_real, conjugation_imag, rotation_norm by auto.
  destruct (Req_EM_T _ 0) as [Z|Z].
  - unfold rotation_matrix. cbn. f_equal; ring.
  - now rewrite rotation_scale.
Qed.

Lemma std_log_principal : principal_log std_kindr.
Proof.
  intros v Hv. cbn [k_log std_kindr]. pose proof (vnorm_pos v) as P.
  destruct (Req_EM_T (vnorm v) 0) as [Z|Z].
  - apply vnorm_zero in Z. subst v. rewrite qexp_zero. unfold std_log.
    destruct (Req_EM_T _ 0) as [E|E]; [reflexivity|]. exfalso. apply E. unfold vnorm. cbn. numR.
    rewrite !Rmult_0_r, !Rplus_0_r. apply sqrt_0.
  - set (n := vnorm v) in *.
    assert (E : qexp v = Quat (cos (n / 2)) (sin (n / 2) / n * vx v) (sin (n / 2) / n * vy v) (sin (n / 2) / n * vz v)).
    { unfold qexp. fold n. now destruct (Req_EM_T n 0). }
    assert (Hs : 0 < sin (n / 2)) by (apply sin_gt_0; lra).
    assert (Hc : 0 < cos (n / 2)) by (apply cos_gt_0; lra).
    rewrite E. unfold std_log. cbn [qw].
    change (qimag _) with (vscale (sin (n / 2) / n) v).
    assert (En : vnorm (vscale (sin (n / 2) / n) v) = sin (n / 2)).
    { rewrite vnorm_scale, Rabs_pos_eq by (apply Rlt_le, Rdiv_lt_0_compat; lra). fold n. field. lra. }
    rewrite En. destruct (Req_EM_T (sin (n / 2)) 0) as [X|X]; [lra|].
    destruct (Rlt_dec (cos (n / 2)) 0) as [Y|Y]; [lra|].
    rewrite Rabs_pos_eq, acos_cos, vscale_vscale by lra.
    replace (2 * (n / 2) / sin (n / 2) * 1 * (sin (n / 2) / n)) with 1 by (field; split; lra). apply vscale_1.
Qed.
