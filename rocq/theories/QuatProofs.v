(** * Lemmas on quaternions *)

From Coquelicot Require Import Coquelicot.
From Coq Require Import List Reals Lra Lia Bool.
From Verif Require Import Num HermiteE3 HermiteSpec HermiteE3Proofs Quat QuatSpec.
Local Open Scope R_scope.

Lemma quat_ext (a b : quat R) : qw a = qw b -> qx a = qx b -> qy a = qy b -> qz a = qz b -> a = b.
Proof. destruct a, b. simpl. congruence. Qed.

Ltac qring := intros; repeat match goal with q : quat R |- _ => destruct q | v : vec3 R |- _ => destruct v end;
  first [apply quat_ext | apply vec3_ext; intros []];
  cbn [qmul qadd qscale qneg qconj qpure qimag qone qrotate qunrotate rotation_matrix cross vneg vscale vadd vsub vmul
       scaled qw qx qy qz vx vy vz coord]; numR; try ring.

Lemma qmul_assoc (a b c : quat R) : qmul (qmul a b) c = qmul a (qmul b c).
Proof. qring. Qed.
Lemma qmul_one_l (a : quat R) : qmul qone a = a.
Proof. qring. Qed.
Lemma qmul_one_r (a : quat R) : qmul a qone = a.
Proof. qring. Qed.
Lemma qconj_mul (a b : quat R) : qconj (qmul a b) = qmul (qconj b) (qconj a).
Proof. qring. Qed.
Lemma qconj_conj (a : quat R) : qconj (qconj a) = a.
Proof. qring. Qed.
Lemma qmul_add_l (a b c : quat R) : qmul (qadd a b) c = qadd (qmul a c) (qmul b c).
Proof. qring. Qed.
Lemma qmul_add_r (a b c : quat R) : qmul c (qadd a b) = qadd (qmul c a) (qmul c b).
Proof. qring. Qed.
Lemma qmul_scale_l (a b : quat R) s : qmul (qscale a s) b = qscale (qmul a b) s.
Proof. qring. Qed.
Lemma qmul_scale_r (a b : quat R) s : qmul a (qscale b s) = qscale (qmul a b) s.
Proof. qring. Qed.
Lemma qmul_neg_l (a b : quat R) : qmul (qneg a) b = qneg (qmul a b).
Proof. qring. Qed.
Lemma qmul_neg_r (a b : quat R) : qmul a (qneg b) = qneg (qmul a b).
Proof. qring. Qed.
Lemma qneg_neg (a : quat R) : qneg (qneg a) = a.
Proof. qring. Qed.

Lemma unit_conj_r q : unit_quat q -> qmul q (qconj q) = qone.
Proof. unfold unit_quat. intros Hu. destruct q as [w x y z]. apply quat_ext; cbn in *; lra. Qed.
Lemma unit_conj_l q : unit_quat q -> qmul (qconj q) q = qone.
Proof. unfold unit_quat. intros Hu. destruct q as [w x y z]. apply quat_ext; cbn in *; lra. Qed.

Lemma unit_mul a b : unit_quat a -> unit_quat b -> unit_quat (qmul a b).
Proof.
  unfold unit_quat. intros Ha Hb. destruct a as [w x y z], b as [w' x' y' z']. cbn in *. numR.
  replace 1 with ((w * w + x * x + y * y + z * z) * (w' * w' + x' * x' + y' * y' + z' * z')) by (rewrite Ha, Hb; ring).
  ring.
Qed.
Lemma unit_conj a : unit_quat a -> unit_quat (qconj a).
Proof. unfold unit_quat. destruct a. cbn. numR. lra. Qed.
Lemma unit_neg a : unit_quat a -> unit_quat (qneg a).
Proof. unfold unit_quat. destruct a. cbn. lra. Qed.
Lemma unit_one : unit_quat qone.
Proof. unfold unit_quat. cbn. numR. ring. Qed.

Lemma qrotate_matrix q v : qrotate q v = rotation_matrix q v.
Proof. qring. Qed.
Lemma qunrotate_matrix q v : qunrotate q v = rotation_matrix (qconj q) v.
Proof. qring. Qed.
Lemma rotation_neg q v : rotation_matrix (qneg q) v = rotation_matrix q v.
Proof. qring. Qed.
Lemma rotation_mul a b v : rotation_matrix (qmul a b) v = rotation_matrix a (rotation_matrix b v).
Proof. qring. Qed.
Lemma rotation_one v : rotation_matrix qone v = v.
Proof. qring. Qed.
Lemma rotation_scale q s v : rotation_matrix q (vscale s v) = vscale s (rotation_matrix q v).
Proof. qring. Qed.
Lemma same_rotation_matrix a b v : same_rotation a b -> rotation_matrix a v = rotation_matrix b v.
Proof. intros [->| ->]; [reflexivity|apply rotation_neg]. Qed.

Lemma rotation_inv q v : unit_quat q -> rotation_matrix q (rotation_matrix (qconj q) v) = v.
Proof. intros Hu. now rewrite <- rotation_mul, unit_conj_r, rotation_one. Qed.
Lemma rotation_inv' q v : unit_quat q -> rotation_matrix (qconj q) (rotation_matrix q v) = v.
Proof. intros Hu. now rewrite <- rotation_mul, unit_conj_l, rotation_one. Qed.

Lemma same_rotation_mul_l a b c : same_rotation b c -> same_rotation (qmul a b) (qmul a c).
Proof. intros [->| ->]; [now left|right; apply qmul_neg_r]. Qed.
Lemma same_rotation_mul_r a b c : same_rotation b c -> same_rotation (qmul b a) (qmul c a).
Proof. intros [->| ->]; [now left|right; apply qmul_neg_l]. Qed.

(** Conversely: unit quaternions with the same rotation matrix are equal up to sign. *)
Lemma rotation_same a b : unit_quat a -> unit_quat b ->
  (forall v, rotation_matrix a v = rotation_matrix b v) -> same_rotation a b.
Proof.
  intros Ha Hb Hv.
  assert (Hc : forall v, rotation_matrix (qmul (qconj b) a) v = v).
  { intros v. rewrite rotation_mul, Hv. now apply rotation_inv'. }
  assert (Hu : unit_quat (qmul (qconj b) a)) by (apply unit_mul; auto; now apply unit_conj).
  destruct (qmul (qconj b) a) as [w x y z] eqn:E.
  pose proof (Hc (V3 1 0 0)) as H1. pose proof (Hc (V3 0 1 0)) as H2.
  unfold rotation_matrix in *. cbn in *. injection H1 as A1 A2 A3. injection H2 as B1 B2 B3.
  unfold unit_quat in Hu. cbn in Hu.
  assert (y * y + z * z = 0) by lra. assert (x * x + z * z = 0) by lra.
  assert (x = 0) by nra. assert (y = 0) by nra. assert (z = 0) by nra. subst x y z.
  assert (Ew : w = 1 \/ w = -1) by (assert ((w - 1) * (w + 1) = 0) by lra;
    destruct (Rmult_integral _ _ H1); [left|right]; lra).
  assert (Ea : a = qmul b (Quat w 0 0 0)).
  { rewrite <- E, <- qmul_assoc, unit_conj_r by auto. now rewrite qmul_one_l. }
  rewrite Ea. destruct Ew as [->| ->]; [left|right]; destruct b; apply quat_ext; cbn; numR; ring.
Qed.

(** ** Derivatives *)

Lemma quat_derivative_const (q : quat R) t : quat_derivative (fun _ => q) t (Quat 0 0 0 0).
Proof. repeat split; apply derivable_pt_lim_const. Qed.

Lemma quat_derivative_ext f d d' t : d = d' -> quat_derivative f t d -> quat_derivative f t d'.
Proof. now intros ->. Qed.

Lemma dlim_eq (f : R -> R) t a b : a = b -> derivable_pt_lim f t a -> derivable_pt_lim f t b.
Proof. now intros ->. Qed.

Lemma quat_derivative_mul f g t d e : quat_derivative f t d -> quat_derivative g t e ->
  quat_derivative (fun s => qmul (f s) (g s)) t (qadd (qmul d (g t)) (qmul (f t) e)).
Proof.
  intros (F0 & F1 & F2 & F3) (G0 & G1 & G2 & G3).
  pose proof (fun a b da db Ha Hb => derivable_pt_lim_mult a b t da db Ha Hb) as M.
  unfold mult_fct in M.
  assert (P : forall a b da db, derivable_pt_lim a t da -> derivable_pt_lim b t db ->
    derivable_pt_lim (fun s => a s + b s) t (da + db)) by (intros; now apply derivable_pt_lim_plus).
  assert (N : forall a b da db, derivable_pt_lim a t da -> derivable_pt_lim b t db ->
    derivable_pt_lim (fun s => a s - b s) t (da - db)) by (intros; now apply derivable_pt_lim_minus).
  repeat split; cbn [qmul qadd qw qx qy qz]; numR; eapply dlim_eq;
  [|apply N; [apply N; [apply N|]|]; apply M; eassumption
   | |apply N; [apply P; [apply P|]|]; apply M; eassumption
   | |apply P; [apply P; [apply N|]|]; apply M; eassumption
   | |apply P; [apply N; [apply P|]|]; apply M; eassumption]; cbv beta; try ring.
Qed.

Lemma quat_derivative_continuous f t d : quat_derivative f t d ->
  continuity_pt (fun s => qw (f s)) t /\ continuity_pt (fun s => qx (f s)) t /\
  continuity_pt (fun s => qy (f s)) t /\ continuity_pt (fun s => qz (f s)) t.
Proof.
  intros (A & B & C & D). repeat split; apply derivable_continuous_pt; eexists; eassumption.
Qed.

(** If [q' = 1/2 omega q] then every vector carried along satisfies [x' = omega x x]. *)
Lemma rotation_derivative f t w v a :
  quat_derivative f t (qscale (qmul (qpure w) (f t)) (/ 2)) ->
  derivable_pt_lim (fun s => coord a (rotation_matrix (f s) v)) t
    (coord a (cross w (rotation_matrix (f t) v))).
Proof.
  intros Hd. pose proof Hd as Hc.
  assert (Hj : quat_derivative (fun s => qconj (f s)) t (qconj (qscale (qmul (qpure w) (f t)) (/ 2)))).
  { destruct Hd as (A & B & C & D). repeat split; cbn [qconj qw qx qy qz]; numR; auto;
    now apply derivable_pt_lim_opp. }
  pose proof (quat_derivative_mul _ _ t _ _ (quat_derivative_mul _ _ t _ _ Hd (quat_derivative_const (qpure v) t)) Hj) as X.
  assert (E : forall s, rotation_matrix (f s) v = qimag (qmul (qmul (f s) (qpure v)) (qconj (f s))))
    by (intros s; now rewrite <- qrotate_matrix).
  destruct X as (_ & X1 & X2 & X3).
  destruct a; (eapply dlim_eq; [|eapply is_derive_Reals; eapply is_derive_ext;
    [intros s; rewrite E; cbn [qimag coord vx vy vz]; reflexivity|apply is_derive_Reals; first [exact X1|exact X2|exact X3]]]);
  generalize (f t) as q; intros [w0 x0 y0 z0]; destruct v as [v1 v2 v3], w as [w1 w2 w3];
  cbn [qmul qadd qscale qconj qpure qimag rotation_matrix cross qw qx qy qz vx vy vz coord]; numR; field.
Qed.

(** ** The exponential map *)

Lemma vnorm_sqr v : vnorm v * vnorm v = vx v * vx v + vy v * vy v + vz v * vz v.
Proof. unfold vnorm. apply sqrt_sqrt. nra. Qed.

Lemma vnorm_zero v : vnorm v = 0 -> v = V3 0 0 0.
Proof.
  intros E. pose proof (vnorm_sqr v) as S. rewrite E in S. destruct v as [x y z]. cbn in S.
  assert (x = 0) by nra. assert (y = 0) by nra. assert (z = 0) by nra. congruence.
Qed.

Lemma vnorm_pos v : 0 <= vnorm v.
Proof. apply sqrt_pos. Qed.

Lemma vnorm_scale s v : vnorm (vscale s v) = Rabs s * vnorm v.
Proof.
  unfold vnorm, vscale. cbn [vx vy vz]. numR.
  replace (s * vx v * (s * vx v) + s * vy v * (s * vy v) + s * vz v * (s * vz v))
    with (Rsqr s * (vx v * vx v + vy v * vy v + vz v * vz v)) by (unfold Rsqr; ring).
  rewrite sqrt_mult by (unfold Rsqr; nra). now rewrite sqrt_Rsqr_abs.
Qed.

(** Along a line the exponential is a rotation about a fixed axis [u] by a half angle [b h]. *)
Lemma qexp_line v : exists h u, v = vscale (2 * h) u /\
  vx u * vx u + vy u * vy u + vz u * vz u = 1 /\ 2 * h = vnorm v /\
  forall b, qexp (vscale b v) = Quat (cos (b * h)) (sin (b * h) * vx u) (sin (b * h) * vy u) (sin (b * h) * vz u).
Proof.
  destruct (Req_EM_T (vnorm v) 0) as [Z|Z].
  - exists 0, (V3 1 0 0). split; [|split; [|split]].
    + rewrite (vnorm_zero v Z). unfold vscale. cbn. numR. f_equal; ring.
    + cbn. ring.
    + rewrite Z. ring.
    + intros b. unfold qexp. rewrite vnorm_scale, Z, Rmult_0_r. destruct (Req_EM_T 0 0) as [_|X]; [|lra].
      rewrite (vnorm_zero v Z). unfold vscale. cbn [vx vy vz]. numR.
      replace (0 / 2) with 0 by field. rewrite !Rmult_0_r, cos_0, sin_0. f_equal; ring.
  - exists (vnorm v / 2), (vscale (/ vnorm v) v). pose proof (vnorm_pos v) as P. split; [|split; [|split]].
    + destruct v as [x y z]. unfold vscale. cbn [vx vy vz]. numR. f_equal; field; auto.
    + pose proof (vnorm_sqr v) as S. unfold vscale. cbn [vx vy vz]. numR.
      transitivity (/ (vnorm v * vnorm v) * (vx v * vx v + vy v * vy v + vz v * vz v)); [field; auto|].
      rewrite <- S. field. auto.
    + field.
    + intros b. unfold qexp. rewrite vnorm_scale.
      destruct (Req_EM_T (Rabs b * vnorm v) 0) as [E|E].
      * assert (b = 0) as ->.
        { destruct (Req_dec b 0) as [E0|E0]; auto. apply Rabs_no_R0 in E0. apply Rmult_integral in E. tauto. }
        rewrite Rabs_R0. unfold vscale. cbn [vx vy vz]. numR.
        replace (0 * vnorm v / 2) with 0 by field. rewrite !Rmult_0_l, cos_0, sin_0. f_equal; ring.
      * assert (Hb : b <> 0) by (intros ->; rewrite Rabs_R0 in E; lra).
        assert (C : cos (Rabs b * vnorm v / 2) = cos (b * (vnorm v / 2))).
        { unfold Rabs. destruct (Rcase_abs b).
          - rewrite <- cos_neg. f_equal. field.
          - f_equal. field. }
        assert (D : sin (Rabs b * vnorm v / 2) / (Rabs b * vnorm v) = sin (b * (vnorm v / 2)) / (b * vnorm v)).
        { unfold Rabs. destruct (Rcase_abs b).
          - replace (- b * vnorm v / 2) with (- (b * (vnorm v / 2))) by field. rewrite sin_neg. field. auto.
          - f_equal. f_equal. field. }
        rewrite C, D. unfold vscale. cbn [vx vy vz]. numR. f_equal; field; auto.
Qed.

Lemma vscale_1 (v : vec3 R) : vscale 1 v = v.
Proof. qring. Qed.
Lemma vscale_0 (v : vec3 R) : vscale 0 v = V3 0 0 0.
Proof. qring. Qed.
Lemma vscale_vscale a b (v : vec3 R) : vscale a (vscale b v) = vscale (a * b) v.
Proof. qring. Qed.
Lemma vneg_scale (v : vec3 R) : vneg v = vscale (-1) v.
Proof. qring. Qed.

Lemma qexp_unit v : unit_quat (qexp v).
Proof.
  destruct (qexp_line v) as (h & u & _ & U & _ & E). rewrite <- (vscale_1 v), E. unfold unit_quat. cbn [qw qx qy qz].
  pose proof (sin2_cos2 (1 * h)) as SC. unfold Rsqr in SC.
  transitivity (sin (1 * h) * sin (1 * h) * (vx u * vx u + vy u * vy u + vz u * vz u) + cos (1 * h) * cos (1 * h)); [ring|].
  rewrite U. lra.
Qed.

Lemma qexp_zero : qexp (V3 0 0 0) = qone.
Proof.
  rewrite <- (vscale_0 (V3 0 0 0)). destruct (qexp_line (V3 0 0 0)) as (h & u & _ & _ & _ & ->).
  rewrite Rmult_0_l, cos_0, sin_0. apply quat_ext; cbn; ring.
Qed.

(** One parameter subgroup. *)
Lemma qexp_add a b v : qmul (qexp (vscale a v)) (qexp (vscale b v)) = qexp (vscale (a + b) v).
Proof.
  destruct (qexp_line v) as (h & u & _ & U & _ & E). rewrite !E, Rmult_plus_distr_r, cos_plus, sin_plus.
  destruct u as [x y z]. cbn [vx vy vz] in *. apply quat_ext; cbn [qmul qw qx qy qz]; numR; try ring.
  transitivity (cos (a * h) * cos (b * h) - sin (a * h) * sin (b * h) * (x * x + y * y + z * z)); [ring|].
  rewrite U. ring.
Qed.

Lemma qexp_conj v : qconj (qexp v) = qexp (vneg v).
Proof.
  rewrite vneg_scale. destruct (qexp_line v) as (h & u & _ & U & _ & E). rewrite <- (vscale_1 v) at 1. rewrite !E.
  replace (-1 * h) with (- (1 * h)) by ring. rewrite cos_neg, sin_neg. apply quat_ext; cbn; numR; ring.
Qed.

Lemma qexp_neg_l v : qmul (qexp (vneg v)) (qexp v) = qone.
Proof. rewrite <- qexp_conj. apply unit_conj_l, qexp_unit. Qed.
Lemma qexp_neg_r v : qmul (qexp v) (qexp (vneg v)) = qone.
Proof. rewrite <- qexp_conj. apply unit_conj_r, qexp_unit. Qed.

(** The exponential along [b(t) v]. *)
Lemma qexp_derivative v (b : R -> R) t db : derivable_pt_lim b t db ->
  quat_derivative (fun s => qexp (vscale (b s) v)) t
    (qscale (qmul (qexp (vscale (b t) v)) (qpure (vscale db v))) (/ 2)).
Proof.
  intros Hb. destruct (qexp_line v) as (h & u & Ev & U & _ & E).
  assert (H0 : derivable_pt_lim (fun s => cos (b s * h)) t (- sin (b t * h) * (db * h))).
  { apply is_derive_Reals. apply is_derive_Reals in Hb. auto_derive; [eexists; exact Hb|].
    replace (Derive (fun x : R => b x) t) with db by (symmetry; exact (is_derive_unique _ _ _ Hb)). ring. }
  assert (H1 : forall k, derivable_pt_lim (fun s => sin (b s * h) * k) t (cos (b t * h) * (db * h) * k)).
  { intros k. apply is_derive_Reals. apply is_derive_Reals in Hb. auto_derive; [eexists; exact Hb|].
    replace (Derive (fun x : R => b x) t) with db by (symmetry; exact (is_derive_unique _ _ _ Hb)). ring. }
  assert (X : quat_derivative (fun s => Quat (cos (b s * h)) (sin (b s * h) * vx u) (sin (b s * h) * vy u) (sin (b s * h) * vz u)) t
    (Quat (- sin (b t * h) * (db * h)) (cos (b t * h) * (db * h) * vx u) (cos (b t * h) * (db * h) * vy u) (cos (b t * h) * (db * h) * vz u))).
  { repeat split; cbn [qw qx qy qz]; auto. }
  assert (D : Quat (- sin (b t * h) * (db * h)) (cos (b t * h) * (db * h) * vx u) (cos (b t * h) * (db * h) * vy u) (cos (b t * h) * (db * h) * vz u)
    = qscale (qmul (qexp (vscale (b t) v)) (qpure (vscale db v))) (/ 2)).
  { rewrite E, Ev. destruct u as [x y z]. cbn [vx vy vz] in *.
    apply quat_ext; cbn [qmul qpure qscale vscale qw qx qy qz vx vy vz]; numR; try field.
    transitivity (- sin (b t * h) * (db * h) * (x * x + y * y + z * z)); [|field]. rewrite U. ring. }
  rewrite <- D. destruct X as (X0 & X1 & X2 & X3).
  repeat split; (eapply is_derive_Reals; eapply is_derive_ext; [intros s; rewrite E; reflexivity|]);
    apply is_derive_Reals; first [exact X0|exact X1|exact X2|exact X3].
Qed.

(** ** Continuity of quaternion valued functions *)

Definition quat_cont (f : R -> quat R) (t : R) : Prop :=
  continuity_pt (fun s => qw (f s)) t /\ continuity_pt (fun s => qx (f s)) t /\
  continuity_pt (fun s => qy (f s)) t /\ continuity_pt (fun s => qz (f s)) t.

Lemma qc_const (q : quat R) t : quat_cont (fun _ => q) t.
Proof. repeat split; apply continuity_pt_const; intros ? ?; reflexivity. Qed.

Lemma cp_mult (f g : R -> R) t : continuity_pt f t -> continuity_pt g t -> continuity_pt (fun s => f s * g s) t.
Proof. apply continuity_pt_mult. Qed.
Lemma cp_plus (f g : R -> R) t : continuity_pt f t -> continuity_pt g t -> continuity_pt (fun s => f s + g s) t.
Proof. apply continuity_pt_plus. Qed.
Lemma cp_minus (f g : R -> R) t : continuity_pt f t -> continuity_pt g t -> continuity_pt (fun s => f s - g s) t.
Proof. apply continuity_pt_minus. Qed.
Lemma cp_opp (f : R -> R) t : continuity_pt f t -> continuity_pt (fun s => - f s) t.
Proof. apply continuity_pt_opp. Qed.
Lemma cp_const (x t : R) : continuity_pt (fun _ => x) t.
Proof. apply continuity_pt_const. intros ? ?. reflexivity. Qed.

Ltac cont := repeat first [assumption | apply cp_const | apply cp_plus | apply cp_minus | apply cp_mult | apply cp_opp].

Lemma qc_mul f g t : quat_cont f t -> quat_cont g t -> quat_cont (fun s => qmul (f s) (g s)) t.
Proof.
  intros (F0 & F1 & F2 & F3) (G0 & G1 & G2 & G3).
  repeat split; cbn [qmul qw qx qy qz]; numR; cont.
Qed.
Lemma qc_add f g t : quat_cont f t -> quat_cont g t -> quat_cont (fun s => qadd (f s) (g s)) t.
Proof.
  intros (F0 & F1 & F2 & F3) (G0 & G1 & G2 & G3).
  repeat split; cbn [qadd qw qx qy qz]; numR; cont.
Qed.
Lemma qc_conj f t : quat_cont f t -> quat_cont (fun s => qconj (f s)) t.
Proof.
  intros (F0 & F1 & F2 & F3). repeat split; cbn [qconj qw qx qy qz]; numR; cont.
Qed.
Lemma qc_pure (b : R -> R) v t : continuity_pt b t -> quat_cont (fun s => qpure (vscale (b s) v)) t.
Proof.
  intros Hb. repeat split; cbn [qpure vscale vx vy vz qw qx qy qz]; numR; cont.
Qed.
Lemma qc_derivative f t d : quat_derivative f t d -> quat_cont f t.
Proof. apply quat_derivative_continuous. Qed.
Lemma qc_rotation f t g a : quat_cont f t -> quat_cont g t ->
  continuity_pt (fun s => coord a (qrotate (f s) (qimag (g s)))) t.
Proof.
  intros (F0 & F1 & F2 & F3) (G0 & G1 & G2 & G3).
  apply (continuity_pt_ext (fun s => coord a (rotation_matrix (f s) (qimag (g s))))).
  { intros s. now rewrite qrotate_matrix. }
  destruct a; unfold rotation_matrix, qimag; cbn [coord vx vy vz]; cont.
Qed.
Lemma qc_ext (f g : R -> quat R) t : (forall s, f s = g s) -> quat_cont f t -> quat_cont g t.
Proof.
  intros E (F0 & F1 & F2 & F3). repeat split;
    (eapply continuity_pt_ext; [intros s; rewrite <- E; reflexivity|assumption]).
Qed.
