(** * Distances between quaternions and between rotation vectors *)

From Coquelicot Require Import Coquelicot.
From Coq Require Import List Reals Lra Lia Bool.
From Verif Require Import Num HermiteE3 HermiteSpec HermiteE3Proofs Quat QuatSpec QuatProofs.
Local Open Scope R_scope.

(** The length of a quaternion as a vector of R^4, and distances. *)
Definition qnorm (q : quat R) : R := sqrt (qw q * qw q + qx q * qx q + qy q * qy q + qz q * qz q).
Definition qminus (a b : quat R) : quat R := Quat (qw a - qw b) (qx a - qx b) (qy a - qy b) (qz a - qz b).
Definition qdist (a b : quat R) : R := qnorm (qminus a b).
Definition vminus (a b : vec3 R) : vec3 R := V3 (vx a - vx b) (vy a - vy b) (vz a - vz b).
Definition vdist (a b : vec3 R) : R := vnorm (vminus a b).

Ltac qsimp := unfold qmul, qadd, qscale, qneg, qconj, qpure, qimag, qone, qminus, vminus, vscale, vneg;
  cbn [qw qx qy qz vx vy vz]; numR.

Lemma qnorm_pos q : 0 <= qnorm q.
Proof. apply sqrt_pos. Qed.
Lemma vdist_pos a b : 0 <= vdist a b.
Proof. apply sqrt_pos. Qed.
Lemma qdist_pos a b : 0 <= qdist a b.
Proof. apply sqrt_pos. Qed.

Lemma qnorm_sqr q : qnorm q * qnorm q = qw q * qw q + qx q * qx q + qy q * qy q + qz q * qz q.
Proof. unfold qnorm. apply sqrt_sqrt. nra. Qed.

Lemma qnorm_unit q : unit_quat q -> qnorm q = 1.
Proof. unfold unit_quat, qnorm. intros ->. apply sqrt_1. Qed.

Lemma qnorm_pure v : qnorm (qpure v) = vnorm v.
Proof. unfold qnorm, vnorm. f_equal. destruct v. qsimp. ring. Qed.

Lemma qnorm_conj q : qnorm (qconj q) = qnorm q.
Proof. unfold qnorm. f_equal. destruct q. qsimp. ring. Qed.

Lemma qnorm_mul a b : qnorm (qmul a b) = qnorm a * qnorm b.
Proof.
  unfold qnorm. rewrite <- sqrt_mult by nra. f_equal. destruct a, b. qsimp. ring.
Qed.

(** Less than the square root, by squares. *)
Lemma le_by_squares a b : 0 <= b -> a * a <= b * b -> a <= b.
Proof. intros Hb H. apply Rnot_lt_le. intros L. nra. Qed.

Lemma cauchy4 a b c d e f g h :
  (a * e + b * f + c * g + d * h) * (a * e + b * f + c * g + d * h) <=
  (a * a + b * b + c * c + d * d) * (e * e + f * f + g * g + h * h).
Proof.
  assert (E : (a * a + b * b + c * c + d * d) * (e * e + f * f + g * g + h * h) -
    (a * e + b * f + c * g + d * h) * (a * e + b * f + c * g + d * h) =
    (a * f - b * e) * (a * f - b * e) + (a * g - c * e) * (a * g - c * e) + (a * h - d * e) * (a * h - d * e) +
    (b * g - c * f) * (b * g - c * f) + (b * h - d * f) * (b * h - d * f) + (c * h - d * g) * (c * h - d * g)) by ring.
  pose proof (Rle_0_sqr (a * f - b * e)). pose proof (Rle_0_sqr (a * g - c * e)). pose proof (Rle_0_sqr (a * h - d * e)).
  pose proof (Rle_0_sqr (b * g - c * f)). pose proof (Rle_0_sqr (b * h - d * f)). pose proof (Rle_0_sqr (c * h - d * g)).
  unfold Rsqr in *. lra.
Qed.

Lemma qnorm_triangle a b : qnorm (qadd a b) <= qnorm a + qnorm b.
Proof.
  pose proof (qnorm_pos a) as Pa. pose proof (qnorm_pos b) as Pb. apply le_by_squares; [lra|].
  pose proof (qnorm_sqr a) as Sa. pose proof (qnorm_sqr b) as Sb. rewrite (qnorm_sqr (qadd a b)).
  assert (C : qw a * qw b + qx a * qx b + qy a * qy b + qz a * qz b <= qnorm a * qnorm b).
  { apply le_by_squares; [nra|].
    replace (qnorm a * qnorm b * (qnorm a * qnorm b)) with ((qnorm a * qnorm a) * (qnorm b * qnorm b)) by ring.
    rewrite Sa, Sb. apply cauchy4. }
  unfold qadd. cbn [qw qx qy qz]. numR. lra.
Qed.

Lemma qdist_triangle a b c : qdist a c <= qdist a b + qdist b c.
Proof.
  unfold qdist. replace (qminus a c) with (qadd (qminus a b) (qminus b c)); [apply qnorm_triangle|].
  destruct a, b, c. qsimp. f_equal; ring.
Qed.

Lemma qdist_sym a b : qdist a b = qdist b a.
Proof. unfold qdist, qnorm. f_equal. destruct a, b. qsimp. ring. Qed.

Lemma qdist_self a : qdist a a = 0.
Proof.
  unfold qdist, qnorm. destruct a. qsimp.
  match goal with |- sqrt ?x = 0 => replace x with 0 by ring end. apply sqrt_0.
Qed.

Lemma qnorm_qdist a b : qnorm a <= qnorm b + qdist a b.
Proof.
  unfold qdist. replace a with (qadd b (qminus a b)) at 1; [apply qnorm_triangle|].
  destruct a, b. qsimp. f_equal; ring.
Qed.

Lemma qdist_norms a b : Rabs (qnorm a - qnorm b) <= qdist a b.
Proof.
  pose proof (qnorm_qdist a b). pose proof (qnorm_qdist b a) as Q. rewrite qdist_sym in Q. apply Rabs_le. lra.
Qed.

Lemma qdist_conj a b : qdist (qconj a) (qconj b) = qdist a b.
Proof. unfold qdist, qnorm. f_equal. destruct a, b. qsimp. ring. Qed.

Lemma qdist_mul_r a a' b : qdist (qmul a b) (qmul a' b) = qdist a a' * qnorm b.
Proof. unfold qdist. rewrite <- qnorm_mul. f_equal. destruct a, a', b. qsimp. f_equal; ring. Qed.

Lemma qdist_mul_l a b b' : qdist (qmul a b) (qmul a b') = qnorm a * qdist b b'.
Proof. unfold qdist. rewrite <- qnorm_mul. f_equal. destruct a, b, b'. qsimp. f_equal; ring. Qed.

Lemma qdist_mul a a' b b' : qdist (qmul a b) (qmul a' b') <= qdist a a' * qnorm b + qnorm a' * qdist b b'.
Proof.
  eapply Rle_trans; [apply (qdist_triangle _ (qmul a' b))|]. rewrite qdist_mul_r, qdist_mul_l. lra.
Qed.

Lemma qdist_components a b e : 0 <= e -> Rabs (qw a - qw b) <= e -> Rabs (qx a - qx b) <= e ->
  Rabs (qy a - qy b) <= e -> Rabs (qz a - qz b) <= e -> qdist a b <= 2 * e.
Proof.
  intros He H1 H2 H3 H4. apply le_by_squares; [lra|]. unfold qdist. rewrite qnorm_sqr. cbn [qminus qw qx qy qz].
  assert (S : forall x, Rabs x <= e -> x * x <= e * e).
  { intros x Hx. rewrite <- (Rabs_pos_eq e He) in Hx. apply Rsqr_le_abs_1 in Hx. exact Hx. }
  pose proof (S _ H1). pose proof (S _ H2). pose proof (S _ H3). pose proof (S _ H4). lra.
Qed.

Lemma qcomponents q : Rabs (qw q) <= qnorm q /\ Rabs (qx q) <= qnorm q /\ Rabs (qy q) <= qnorm q /\ Rabs (qz q) <= qnorm q.
Proof.
  pose proof (qnorm_pos q) as P. pose proof (qnorm_sqr q) as S.
  assert (X : forall x, x * x <= qnorm q * qnorm q -> Rabs x <= qnorm q).
  { intros x Hx. apply le_by_squares; [exact P|]. rewrite <- Rabs_mult. rewrite Rabs_pos_eq; [exact Hx|nra]. }
  repeat split; apply X; rewrite S; nra.
Qed.

(** ** Vectors *)

Lemma vdist_pure a b : vdist a b = qdist (qpure a) (qpure b).
Proof.
  unfold vdist, qdist. rewrite <- qnorm_pure. f_equal. destruct a, b. qsimp. f_equal. ring.
Qed.

Lemma vdist_triangle a b c : vdist a c <= vdist a b + vdist b c.
Proof. rewrite !vdist_pure. apply qdist_triangle. Qed.

Lemma vdist_self a : vdist a a = 0.
Proof. rewrite vdist_pure. apply qdist_self. Qed.

Lemma vnorm_vdist a b : vnorm a <= vnorm b + vdist a b.
Proof. rewrite vdist_pure, <- !qnorm_pure. apply qnorm_qdist. Qed.

Lemma vdist_neg a b : vdist (vneg a) (vneg b) = vdist a b.
Proof. unfold vdist, vnorm. f_equal. destruct a, b. qsimp. ring. Qed.

Lemma vnorm_neg a : vnorm (vneg a) = vnorm a.
Proof. unfold vnorm. f_equal. destruct a. qsimp. ring. Qed.

Lemma vcomponents v : Rabs (vx v) <= vnorm v /\ Rabs (vy v) <= vnorm v /\ Rabs (vz v) <= vnorm v.
Proof. rewrite <- qnorm_pure. destruct (qcomponents (qpure v)) as (_ & A & B & C). cbn in A, B, C. auto. Qed.

Lemma vdist_components a b e : 0 <= e -> Rabs (vx a - vx b) <= e -> Rabs (vy a - vy b) <= e ->
  Rabs (vz a - vz b) <= e -> vdist a b <= 2 * e.
Proof.
  intros He H1 H2 H3. rewrite vdist_pure. apply qdist_components; auto. qsimp. rewrite Rminus_diag_eq, Rabs_R0; auto.
Qed.

(** Scaling both arguments. *)
Lemma vdist_scale s v s' v' : vdist (vscale s v) (vscale s' v') <= Rabs (s - s') * vnorm v + Rabs s' * vdist v v'.
Proof.
  eapply Rle_trans; [apply (vdist_triangle _ (vscale s' v))|]. apply Rplus_le_compat.
  - right. rewrite <- vnorm_scale. unfold vdist. f_equal. destruct v. qsimp. f_equal; ring.
  - right. unfold vdist. rewrite <- vnorm_scale. f_equal. destruct v, v'. qsimp. f_equal; ring.
Qed.

(** The imaginary part is no longer than the quaternion. *)
Lemma vdist_imag a b : vdist (qimag a) (qimag b) <= qdist a b.
Proof.
  unfold vdist, qdist, vnorm, qnorm. apply sqrt_le_1_alt. destruct a as [w x y z], b as [w' x' y' z']. qsimp.
  pose proof (Rle_0_sqr (w - w')). unfold Rsqr in *. lra.
Qed.

Lemma vnorm_imag a : vnorm (qimag a) <= qnorm a.
Proof. unfold vnorm, qnorm. apply sqrt_le_1_alt. destruct a. qsimp. nra. Qed.

(** ** The exponential map halves distances at least *)

Lemma cos_below x : 2 - 2 * cos x <= x * x.
Proof.
  replace (cos x) with (1 - 2 * (sin (x / 2) * sin (x / 2))).
  - assert (Rabs (sin (x / 2)) <= Rabs (x / 2)).
    { assert (P : forall y, 0 <= y -> Rabs (sin y) <= y).
      { intros y Hy. apply Rabs_le. destruct (Req_dec y 0) as [->|Z]; [rewrite sin_0; lra|].
        split; [|left; apply sin_lt_x; lra].
        destruct (Rle_dec y PI) as [Q|Q].
        - pose proof (sin_ge_0 y Hy Q). lra.
        - pose proof (SIN_bound y). pose proof PI2_1. unfold PI2 in *. lra. }
      destruct (Rle_dec 0 (x / 2)) as [Q|Q].
      - rewrite (Rabs_pos_eq (x / 2)) by exact Q. now apply P.
      - rewrite <- (Rabs_Ropp (x / 2)), <- (Rabs_Ropp (sin (x / 2))), <- sin_neg, (Rabs_pos_eq (- (x / 2))) by lra. apply P. lra. }
    apply Rsqr_le_abs_1 in H. unfold Rsqr in H. lra.
  - replace x with (2 * (x / 2)) at 3 by field. rewrite cos_2a_sin. ring.
Qed.

Lemma qexp_lipschitz a b : qdist (qexp a) (qexp b) <= / 2 * vdist a b.
Proof.
  destruct (qexp_line a) as (h & n & Ea & Un & Hh & Xa). destruct (qexp_line b) as (k & m & Eb & Um & Hk & Xb).
  specialize (Xa 1). specialize (Xb 1).
  replace (vscale 1 a) with a in Xa by (destruct a; qsimp; f_equal; ring).
  replace (vscale 1 b) with b in Xb by (destruct b; qsimp; f_equal; ring).
  rewrite Rmult_1_l in *. rewrite Xa, Xb. pose proof (vnorm_pos a). pose proof (vnorm_pos b).
  set (c := vx n * vx m + vy n * vy m + vz n * vz m).
  assert (Hc : -1 <= c <= 1).
  { apply Rabs_le_between, le_by_squares; [lra|]. rewrite <- Rabs_mult, Rabs_pos_eq by nra.
    pose proof (cauchy4 (vx n) (vy n) (vz n) 0 (vx m) (vy m) (vz m) 0) as Q. unfold c in *. nra. }
  apply le_by_squares; [pose proof (vdist_pos a b); lra|].
  replace (/ 2 * vdist a b * (/ 2 * vdist a b)) with (/ 4 * (vdist a b * vdist a b)) by field.
  unfold vdist. rewrite vnorm_sqr. unfold qdist. rewrite qnorm_sqr, Ea, Eb. qsimp. clear Xa Xb.
  pose proof (sin2_cos2 h) as Sh. pose proof (sin2_cos2 k) as Sk. unfold Rsqr in *.
  assert (L : (cos h - cos k) * (cos h - cos k) + (sin h * vx n - sin k * vx m) * (sin h * vx n - sin k * vx m) +
    (sin h * vy n - sin k * vy m) * (sin h * vy n - sin k * vy m) +
    (sin h * vz n - sin k * vz m) * (sin h * vz n - sin k * vz m) = 2 - 2 * (cos h * cos k + c * (sin h * sin k))).
  { transitivity (cos h * cos h + cos k * cos k - 2 * (cos h * cos k) +
      sin h * sin h * (vx n * vx n + vy n * vy n + vz n * vz n) + sin k * sin k * (vx m * vx m + vy m * vy m + vz m * vz m) -
      2 * (c * (sin h * sin k))); [unfold c; ring|]. rewrite Un, Um. lra. }
  rewrite L.
  match goal with |- _ <= / 4 * ?x => replace x with (4 * (h * h + k * k - 2 * (h * k) * c)) end.
  2:{ transitivity (4 * (h * h * (vx n * vx n + vy n * vy n + vz n * vz n) + k * k * (vx m * vx m + vy m * vy m + vz m * vz m) -
        2 * (h * k) * c)); [rewrite Un, Um; ring|unfold c; ring]. }
  pose proof (cos_below (h - k)) as P1. pose proof (cos_below (h + k)) as P2. rewrite cos_minus in P1. rewrite cos_plus in P2.
  nra.
Qed.

Lemma qexp_norm v : qnorm (qexp v) = 1.
Proof. apply qnorm_unit, qexp_unit. Qed.
