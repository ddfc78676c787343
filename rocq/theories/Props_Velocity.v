(** * C96: the derivative functions of the piecewise SE3 curves *)

From Coquelicot Require Import Coquelicot.
From Coq Require Import List Reals Lra Lia Bool Arith NArith ZArith.
From Verif Require Import Base TimeOrder TimeInst KeyGen Manager ManagerSpec ManagerProofs ManagerProofs2
  ManagerProofs3 Num Sampling SamplingSpec SamplingProofs HermiteE3 HermiteSpec HermiteE3Proofs Quat QuatSpec QuatProofs QuatLog
  Discrete DiscreteSpec DiscreteProofs Composition Props_Manager Props_Discrete Props_Slerp2 Props_Piecewise Se3 Props_Se3 Velocity.
Import ListNotations.
Local Open Scope R_scope.

Local Notation se3_curve := (@slerp_curve R pose3).
Local Notation se3_at := (semi_evaluate se3_exp se3_log se3_scale).

(** gtsam::traits<V>::Local of a group: the logarithm of the way from [x] to [y]; the
    division of a vector by a number. *)
Definition group_local {V W} `{GroupOps V} (vlog : V -> W) (x y : V) : W := vlog (gmul (ginv x) y).
Definition divided {W} (vscale : W -> R -> W) (w : W) (d : R) : W := vscale w (/ d).

(** The time [t] belongs to the segment from [ta] to [tb]: the segments are closed at the
    left, the last one also at the right. *)
Definition in_segment (tm ta tb t : R) : Prop := ta <= t < tb \/ (t = tb /\ tb = tm).

Section General.
Context {V : Type} `{GroupLaws V} {W : Type} (vexp : W -> V) (vlog : V -> W) (vscale : W -> R -> W) (zero : W).
Local Notation curve := (@slerp_curve R V).
Local Notation der := (pw_derivative (group_local vlog) (divided vscale) zero).
Local Notation ev := (semi_evaluate vexp vlog vscale).

Lemma last_of (m : mgr R V) u ta A tb B w : consistent m -> contents m = u ++ (ta, A) :: (tb, B) :: w ->
  tb = max_time m -> w = [].
Proof.
  intros Hc E Em. destruct w as [|[t1 C] w]; [reflexivity|exfalso].
  assert (E' : contents m = (u ++ [(ta, A)]) ++ (tb, B) :: (t1, C) :: w) by (rewrite E, <- app_assoc; reflexivity).
  pose proof (consistent_incr _ _ _ _ _ _ _ Hc E') as L.
  assert (I : In (t1, C) (contents m)) by (rewrite E', in_app_iff; simpl; auto).
  pose proof (contents_bounds _ _ _ Hc I) as Hb. lra.
Qed.

Lemma der_segment (c : curve) ta A tb B t n : consistent (s_mgr c) -> adjacent (contents (s_mgr c)) (ta, A) (tb, B) ->
  in_segment (max_time (s_mgr c)) ta tb t ->
  ta < tb /\ der c t n = Ok (if N.eqb n 1 then vscale (vlog (gmul (ginv B) A)) (/ (tb - ta)) else zero).
Proof.
  intros Hc (u & w & E) Hs. pose proof (consistent_incr _ _ _ _ _ _ _ Hc E) as Hlt. split; [exact Hlt|].
  assert (Ht : ta <= t <= tb) by (destruct Hs as [|[-> _]]; lra).
  assert (Ia : In (ta, A) (contents (s_mgr c))) by (rewrite E, in_app_iff; simpl; auto).
  assert (Ib : In (tb, B) (contents (s_mgr c))) by (rewrite E, in_app_iff; simpl; auto).
  pose proof (contents_bounds _ _ _ Hc Ia) as Ba. pose proof (contents_bounds _ _ _ Hc Ib) as Bb.
  unfold pw_derivative. cbv zeta.
  numR. rewrite (proj2 (Rltb_ge t (min_time (s_mgr c)))), (proj2 (Rltb_ge (max_time (s_mgr c)) t)) by lra. cbn [negb].
  destruct (bracket_R _ _ _ _ _ _ _ t Hc E Ht) as (_ & n0 & n1 & -> & [(-> & -> & -> & -> & _)|(-> & Hw & _)]).
  - destruct (N.eqb n 1); reflexivity.
  - exfalso. destruct Hs as [|[_ Em]]; [lra|]. apply Hw. now apply (last_of (s_mgr c) u ta A tb B).
Qed.

(** It returns a value exactly in the range of at least two coefficients. *)
Theorem C96_domain : forall (c : curve) t n, consistent (s_mgr c) ->
  ((exists w, der c t n = Ok w) <-> (2 <= size (s_mgr c))%nat /\ min_time (s_mgr c) <= t <= max_time (s_mgr c)) /\
  (~ ((2 <= size (s_mgr c))%nat /\ min_time (s_mgr c) <= t <= max_time (s_mgr c)) -> der c t n = Abort).
Proof.
  intros c t n Hc. unfold pw_derivative. cbv zeta.
  numR. destruct (Rltb t (min_time (s_mgr c))) eqn:L1; [apply Rltb_lt in L1|apply Rltb_ge in L1]; cbn [negb].
  { split; [split; [intros [w X]; discriminate|lra]|reflexivity]. }
  destruct (Rltb (max_time (s_mgr c)) t) eqn:L2; [apply Rltb_lt in L2|apply Rltb_ge in L2]; cbn [negb].
  { split; [split; [intros [w X]; discriminate|lra]|reflexivity]. }
  pose proof (C09_domain (s_mgr c) t Hc) as D.
  destruct (get_coefficients_at (s_mgr c) t) as [[a b]|] eqn:E.
  - destruct (proj1 D (ex_intro _ _ eq_refl)) as (Hz & _). split; [split; [intros _; auto|intros _; destruct (N.eqb n 1); eauto]|].
    intros X. exfalso. apply X. auto.
  - split; [split; [intros [w X]; discriminate|]|reflexivity]. intros [Hz _]. destruct (proj2 D) as (r & X); [|discriminate].
    split; [exact Hz|]. split; now apply tle_R.
Qed.

(** Orders other than 1 give zero. *)
Theorem C96_other_orders : forall (c : curve) t n, consistent (s_mgr c) -> n <> 1%N ->
  (2 <= size (s_mgr c))%nat -> min_time (s_mgr c) <= t <= max_time (s_mgr c) -> der c t n = Ok zero.
Proof.
  intros c t n Hc Hn Hz Ht. destruct (proj2 (proj1 (C96_domain c t n Hc)) (conj Hz Ht)) as (w & E).
  rewrite E. revert E. unfold pw_derivative. cbv zeta. destruct (negb _); [discriminate|]. destruct (negb _); [discriminate|].
  destruct (get_coefficients_at _ _) as [[a b]|]; [|discriminate].
  rewrite (proj2 (N.eqb_neq n 1) Hn). now intros [= <-].
Qed.

(** The first derivative is the velocity of the curve run backwards: with the velocity
    [w] the way from the value at [s] to the value at [s'] takes the time [s - s']. *)
Theorem C96_backwards : forall (c : curve) ta A tb B t,
  exp_log vexp vlog vscale -> principal vexp vlog vscale ->
  consistent (s_mgr c) -> adjacent (contents (s_mgr c)) (ta, A) (tb, B) -> in_segment (max_time (s_mgr c)) ta tb t ->
  vlog (ginv (gmul (ginv A) B)) = vscale (vlog (gmul (ginv A) B)) (-1) ->
  exists w, der c t 1 = Ok w /\
  forall s s' p p', ta <= s <= tb -> ta <= s' <= tb -> ev c s = Ok p -> ev c s' = Ok p' ->
    gmul (ginv p) p' = vexp (vscale w (s - s')).
Proof.
  intros c ta A tb B t Hel Hpr Hc Hadj Hs Hinv.
  destruct (der_segment c ta A tb B t 1 Hc Hadj Hs) as [Hlt E]. cbn [N.eqb Pos.eqb] in E.
  eexists. split; [exact E|]. intros s s' p p' Hs1 Hs2 Ep Ep'.
  destruct Hadj as (u & w & Eu).
  rewrite (C60_equal_steps vexp vlog vscale c u ta A tb B w s s' p p' Hel Hc Eu Hs1 Hs2 Ep Ep').
  replace (gmul (ginv B) A) with (ginv (gmul (ginv A) B)).
  2:{ rewrite ginv_gmul. f_equal. apply (gmul_cancel (ginv A)). now rewrite ginv_r, ginv_l. }
  rewrite Hinv, !(pr_scale _ _ _ Hpr). do 2 f_equal. field. lra.
Qed.

End General.

(** ** The curve of poses *)

Local Notation se3_der := (pw_derivative (group_local se3_log) (divided se3_scale) (Twist3 (V3 0 0 0) (V3 0 0 0))).

(** The velocity, in the coordinates of the body, of the point [x] of a body with the
    velocity and angular velocity [w]. *)
Definition point_velocity (w : twist3) (x : vec3 R) : vec3 R := vadd (w3_v w) (cross (w3_w w) x).

(** The body has at time [t] the pose [P] and, in its own coordinates, the velocity [w]. *)
Definition has_velocity (at_ : R -> outcome pose3) (t : R) (w : twist3) : Prop :=
  exists P, at_ t = Ok P /\ forall x i,
    derivable_pt_lim (fun s => coord i (place at_ x s)) t (coord i (turned (p3_rot P) (point_velocity w x))).

Lemma about_axis u a : dot u u = 1 -> about u a u = u.
Proof.
  intros U. unfold about. rewrite U. assert (X : cross u u = V3 0 0 0) by (generalize u; qring). rewrite X.
  generalize (cos a), (sin a), u. qring.
Qed.

Lemma exp_point_velocity w x a k t i :
  derivable_pt_lim (fun s => coord i (moved (se3_exp (se3_scale w ((s - a) * k))) x)) t
    (coord i (turned (p3_rot (se3_exp (se3_scale w ((t - a) * k)))) (vscale k (point_velocity w x)))).
Proof.
  destruct (twist_screw w) as (u & q & d & h & U & _ & ->).
  apply (derivable_pt_lim_ext (fun s => coord i (screw u q d h ((s - a) * k) x))).
  { intros s. now rewrite screw_exp by exact U. }
  eapply dlim_eq; [|apply screw_derivative; exact U]. f_equal. set (al := (t - a) * k).
  assert (Et : forall v, turned (p3_rot (se3_exp (se3_scale (screw_twist u q d h) al))) v = about u (al * d) v).
  { intros v. cbn [se3_exp p3_rot se3_scale screw_twist w3_w]. rewrite so3_about by exact U. f_equal. ring. }
  rewrite turned_scale.
  assert (Ep : point_velocity (screw_twist u q d h) x = vadd (vscale h u) (vscale d (cross u (vsub x q)))).
  { unfold point_velocity, screw_twist. cbn [w3_v w3_w]. generalize u, q, x. qring. }
  rewrite Ep, turned_add, !turned_scale, turned_cross, !Et, about_axis by exact U. unfold screw.
  generalize (about u (al * d) (vsub x q)), u, q. qring.
Qed.

(** Multiplication from the left by a fixed pose. *)
Lemma moved_derivative A (f : R -> vec3 R) t (d : vec3 R) :
  (forall i, derivable_pt_lim (fun s => coord i (f s)) t (coord i d)) ->
  forall i, derivable_pt_lim (fun s => coord i (moved A (f s))) t (coord i (turned (p3_rot A) d)).
Proof.
  intros D i. unfold moved, turned, rotation_matrix. set (r := r3 (p3_rot A)). set (p := p3_pos A).
  pose proof (proj2 (is_derive_Reals _ _ _) (D AX)) as DX. pose proof (proj2 (is_derive_Reals _ _ _) (D AY)) as DY.
  pose proof (proj2 (is_derive_Reals _ _ _) (D AZ)) as DZ. cbn [coord] in DX, DY, DZ.
  apply is_derive_Reals.
  assert (L : forall a b c e, is_derive (fun s => a * vx (f s) + b * vy (f s) + c * vz (f s) + e) t (a * vx d + b * vy d + c * vz d)).
  { intros a b c e. replace (a * vx d + b * vy d + c * vz d) with (plus (plus (plus (a * vx d) (b * vy d)) (c * vz d)) 0) by (unfold plus; cbn; ring).
    apply (is_derive_plus (fun s => a * vx (f s) + b * vy (f s) + c * vz (f s)) (fun _ : R => e) t (a * vx d + b * vy d + c * vz d) 0).
    - apply (is_derive_plus (fun s => a * vx (f s) + b * vy (f s)) (fun s => c * vz (f s)) t (a * vx d + b * vy d) (c * vz d)).
      + apply (is_derive_plus (fun s => a * vx (f s)) (fun s => b * vy (f s)) t (a * vx d) (b * vy d)).
        * apply (is_derive_scal (fun s => vx (f s)) t a (vx d) DX).
        * apply (is_derive_scal (fun s => vy (f s)) t b (vy d) DY).
      + apply (is_derive_scal (fun s => vz (f s)) t c (vz d) DZ).
    - apply (is_derive_const (K := R_AbsRing) (V := R_NormedModule) e t). }
  destruct i; cbn [coord vadd vx vy vz]; numR; apply L.
Qed.

Lemma place_inside (c : se3_curve) u ta A tb B w x : consistent (s_mgr c) ->
  contents (s_mgr c) = u ++ (ta, A) :: (tb, B) :: w -> forall s, ta <= s <= tb ->
  place (se3_at c) x s = moved A (moved (se3_exp (se3_scale (se3_log (gmul (ginv A) B)) ((s - ta) * / (tb - ta)))) x).
Proof.
  intros Hc E s Hs. unfold place. rewrite (blend_value _ _ _ se3_zero se3_one c u ta A tb B w s Hc E Hs). apply moved_mul.
Qed.

(** Between two coefficients with no half turn between them, the body has, in its own
    coordinates, the opposite of the returned velocity. *)
Theorem C96_opposite : forall (c : se3_curve) ta A tb B t,
  consistent (s_mgr c) -> adjacent (contents (s_mgr c)) (ta, A) (tb, B) -> ~ half_turn A B -> ta < t < tb ->
  exists w, se3_der c t 1 = Ok w /\ has_velocity (se3_at c) t (se3_scale w (-1)).
Proof.
  intros c ta A tb B t Hc Ha Hh Ht. destruct (der_segment se3_log se3_scale (Twist3 (V3 0 0 0) (V3 0 0 0)) c ta A tb B t 1 Hc Ha) as [Hlt E].
  { left. lra. }
  cbn [N.eqb Pos.eqb] in E. eexists. split; [exact E|]. destruct Ha as (u & w & Eu).
  assert (El : se3_log (gmul (ginv B) A) = se3_scale (se3_log (gmul (ginv A) B)) (-1)).
  { rewrite <- se3_log_inverse by (intros X; now apply Hh, half_turn_angle).
    rewrite ginv_gmul. do 2 f_equal. apply (gmul_cancel (ginv A)). now rewrite ginv_r, ginv_l. }
  rewrite El. set (L := se3_log (gmul (ginv A) B)). set (k := / (tb - ta)).
  eexists. split; [apply (blend_value _ _ _ se3_zero se3_one c u ta A tb B w t Hc Eu); lra|].
  fold L. change ((t - ta) / (tb - ta)) with ((t - ta) * k). intros x i.
  apply (derivable_local (fun s => coord i (moved A (moved (se3_exp (se3_scale L ((s - ta) * k))) x))) _ ta tb t); [exact Ht| |].
  - intros s Hs. now rewrite (place_inside c u ta A tb B w x Hc Eu) by lra.
  - eapply dlim_eq; [|apply moved_derivative; intros j; apply exp_point_velocity].
    cbn [gmul pose3_GroupOps pose3_mul p3_rot]. rewrite turned_mul. do 3 f_equal.
    unfold point_velocity. cbn [se3_scale w3_v w3_w]. generalize (w3_v L), (w3_w L), x. qring.
Qed.

Lemma turned_inj r a b : turned r a = turned r b -> a = b.
Proof. intros E. rewrite <- (turned_inv_l r a), E. apply turned_inv_l. Qed.

(** A body has one velocity only. *)
Lemma velocity_unique at_ t w w' : has_velocity at_ t w -> has_velocity at_ t w' -> w = w'.
Proof.
  intros (P & E & D) (P' & E' & D'). rewrite E in E'. injection E' as <-.
  assert (X : forall x, point_velocity w x = point_velocity w' x).
  { intros x. apply (turned_inj (p3_rot P)). apply vec3_ext. intros i. eapply uniqueness_limite; [apply D|apply D']. }
  unfold point_velocity in X. destruct w as [v o], w' as [v' o']. cbn [w3_v w3_w] in X.
  assert (Xv : v = v').
  { pose proof (X (V3 0 0 0)) as Y. destruct v, v', o, o'. unfold vadd, cross in Y. cbn in Y. injection Y. intros. f_equal; lra. }
  subst v'. f_equal. pose proof (X (V3 1 0 0)) as Y1. pose proof (X (V3 0 1 0)) as Y2.
  destruct v, o, o'. unfold vadd, cross in Y1, Y2. cbn in Y1, Y2. injection Y1. injection Y2. intros. f_equal; lra.
Qed.

(** So the returned velocity is right for a body at rest only. *)
Theorem C96_right_iff_at_rest : forall (c : se3_curve) ta A tb B t,
  consistent (s_mgr c) -> adjacent (contents (s_mgr c)) (ta, A) (tb, B) -> ~ half_turn A B -> ta < t < tb ->
  exists w, se3_der c t 1 = Ok w /\ (has_velocity (se3_at c) t w <-> A = B).
Proof.
  intros c ta A tb B t Hc Ha Hh Ht. destruct (C96_opposite c ta A tb B t Hc Ha Hh Ht) as (w & E & Hv).
  exists w. split; [exact E|].
  destruct (der_segment se3_log se3_scale (Twist3 (V3 0 0 0) (V3 0 0 0)) c ta A tb B t 1 Hc Ha) as [Hlt E'].
  { left. lra. }
  rewrite E in E'. cbn [N.eqb Pos.eqb] in E'.
  assert (Ew : w = se3_scale (se3_log (gmul (ginv B) A)) (/ (tb - ta))) by congruence.
  assert (Z : has_velocity (se3_at c) t w -> w = se3_scale w (-1)) by (intros X; exact (velocity_unique _ _ _ _ X Hv)).
  assert (Z0 : w = se3_scale w (-1) <-> w = Twist3 (V3 0 0 0) (V3 0 0 0)).
  { destruct w as [[a b e] [f g h]]. unfold se3_scale, vscale. cbn. split.
    - intros X. injection X. intros. f_equal; f_equal; lra.
    - intros X. injection X. intros. subst. f_equal; f_equal; lra. }
  assert (Z1 : w = Twist3 (V3 0 0 0) (V3 0 0 0) <-> A = B).
  { split.
    - intros X. rewrite X in Ew. assert (L0 : se3_log (gmul (ginv B) A) = Twist3 (V3 0 0 0) (V3 0 0 0)).
      { destruct (se3_log (gmul (ginv B) A)) as [[a b e] [f g h]]. unfold se3_scale, vscale in Ew. cbn in Ew.
        assert (Hk : / (tb - ta) <> 0) by (apply Rinv_neq_0_compat; lra).
        assert (C0 : forall r, 0 = / (tb - ta) * r -> r = 0).
        { intros r Er. symmetry in Er. apply Rmult_integral in Er. tauto. }
        f_equal; f_equal; apply C0;
          [exact (f_equal (fun z => vx (w3_v z)) Ew)|exact (f_equal (fun z => vy (w3_v z)) Ew)|exact (f_equal (fun z => vz (w3_v z)) Ew)
          |exact (f_equal (fun z => vx (w3_w z)) Ew)|exact (f_equal (fun z => vy (w3_w z)) Ew)|exact (f_equal (fun z => vz (w3_w z)) Ew)]. }
      pose proof (el_inverse _ _ _ se3_exp_log (gmul (ginv B) A)) as Y.
      pose proof (se3_zero (gmul (ginv B) A)) as Y0.
      assert (Ys : se3_scale (se3_log (gmul (ginv B) A)) 0 = se3_scale (se3_log (gmul (ginv B) A)) 1).
      { rewrite L0. unfold se3_scale, vscale. cbn. f_equal; f_equal; ring. }
      rewrite Ys in Y0. rewrite se3_one in Y0. apply (gmul_cancel (ginv B)). now rewrite Y0, ginv_l.
    - intros <-. rewrite Ew. rewrite ginv_l. change (gone : pose3) with pose3_one.
      assert (L0 : se3_log pose3_one = Twist3 (V3 0 0 0) (V3 0 0 0)).
      { rewrite <- (se3_log_exp_inverse (Twist3 (V3 0 0 0) (V3 0 0 0))).
        - f_equal. change pose3_one with (gone : pose3). rewrite <- (se3_zero A). f_equal. unfold se3_scale, vscale. cbn. f_equal; f_equal; ring.
        - cbn [w3_w]. unfold vnorm. cbn. rewrite !Rmult_0_r, !Rplus_0_r, sqrt_0. apply PI_RGT_0. }
      rewrite L0. unfold se3_scale, vscale. cbn. f_equal; f_equal; ring. }
  rewrite <- Z1. split; [intros X; apply Z0, Z, X|]. intros X. rewrite <- (proj2 Z0 X) in Hv. exact Hv.
Qed.

Lemma has_velocity_local (f g : R -> outcome pose3) a b t w : a < t < b -> (forall s, a < s < b -> f s = g s) ->
  has_velocity f t w -> has_velocity g t w.
Proof.
  intros Ht E (P & EP & D). exists P. split; [now rewrite <- E|]. intros x i.
  apply (derivable_local (fun s => coord i (place f x s)) _ a b t); [exact Ht| |apply D].
  intros s Hs. unfold place. now rewrite E.
Qed.

Lemma at_rest P t : has_velocity (fun _ => Ok P) t (Twist3 (V3 0 0 0) (V3 0 0 0)).
Proof.
  exists P. split; [reflexivity|]. intros x i. unfold place, point_velocity. cbn [w3_v w3_w].
  eapply dlim_eq; [|apply derivable_pt_lim_const].
  assert (X : turned (p3_rot P) (vadd (V3 0 0 0) (cross (V3 0 0 0) x)) = V3 0 0 0).
  { unfold turned. generalize (r3 (p3_rot P)), x. qring. }
  rewrite X. now destruct i.
Qed.

(** The discrete curve is at rest between its jumps, which are half way between two
    coefficients, and returns the same velocity as the curve that moves. *)
Theorem C96_discrete : forall (c : se3_curve) ta A tb B t,
  consistent (s_mgr c) -> adjacent (contents (s_mgr c)) (ta, A) (tb, B) -> ~ half_turn A B -> ta < t < tb ->
  t - ta <> tb - t ->
  has_velocity (disc_evaluate c) t (Twist3 (V3 0 0 0) (V3 0 0 0)) /\
  exists w, se3_der c t 1 = Ok w /\ (has_velocity (disc_evaluate c) t w <-> A = B).
Proof.
  intros c ta A tb B t Hc Ha Hh Ht Hm.
  assert (R0 : has_velocity (disc_evaluate c) t (Twist3 (V3 0 0 0) (V3 0 0 0))).
  { destruct Ha as (u & v & Eu). pose proof (pw_between (nearer (S := R) (V := pose3)) c u ta A tb B v) as Hb.
    destruct (Rlt_le_dec (t - ta) (tb - t)) as [L|L].
    - apply (has_velocity_local (fun _ => Ok A) _ ta ((ta + tb) / 2)); [lra| |apply at_rest].
      intros s Hs. symmetry. unfold disc_evaluate. rewrite Hb by (auto using nearer_starts; lra). f_equal.
      unfold nearer. numR. rewrite (proj2 (Rltb_ge (tb - s) (s - ta))) by lra. reflexivity.
    - apply (has_velocity_local (fun _ => Ok B) _ ((ta + tb) / 2) tb); [lra| |apply at_rest].
      intros s Hs. symmetry. unfold disc_evaluate. rewrite Hb by (auto using nearer_starts; lra). f_equal.
      unfold nearer. numR. rewrite (proj2 (Rltb_lt (tb - s) (s - ta))) by lra. reflexivity. }
  split; [exact R0|]. destruct (C96_right_iff_at_rest c ta A tb B t Hc Ha Hh Ht) as (w & E & Hi).
  destruct (C96_opposite c ta A tb B t Hc Ha Hh Ht) as (w' & E' & Ho). rewrite E in E'. injection E' as <-.
  exists w. split; [exact E|]. rewrite <- Hi. split; intros X.
  - rewrite (velocity_unique _ _ _ _ X R0) in *.
    assert (Z : se3_scale (Twist3 (V3 0 0 0) (V3 0 0 0)) (-1) = Twist3 (V3 0 0 0) (V3 0 0 0)).
    { unfold se3_scale, vscale. cbn. f_equal; f_equal; ring. }
    rewrite Z in Ho. exact Ho.
  - pose proof (velocity_unique _ _ _ _ X Ho) as Z.
    assert (Z0 : w = Twist3 (V3 0 0 0) (V3 0 0 0)).
    { destruct w as [[a b e] [f g h]]. unfold se3_scale, vscale in Z. cbn in Z. injection Z. intros. f_equal; f_equal; lra. }
    now rewrite Z0.
Qed.

(** ** One metre in one second *)

Definition shifted : pose3 := Pose3 rot3_one (V3 1 0 0).
Definition forwards : twist3 := Twist3 (V3 1 0 0) (V3 0 0 0).

Lemma no_half_turn : ~ half_turn pose3_one shifted.
Proof. intros (r & E & Hr & _). apply Hr. cbn [p3_rot pose3_one shifted] in E. now rewrite rot3_one_r in E. Qed.

Lemma shifted_velocity (c : se3_curve) t : consistent (s_mgr c) ->
  contents (s_mgr c) = [(0, pose3_one); (1, shifted)] -> 0 < t < 1 -> has_velocity (se3_at c) t forwards.
Proof.
  intros Hc Ec Ht. destruct (C96_opposite c 0 pose3_one 1 shifted t Hc) as (w & E & Ho);
    [rewrite Ec; exists [], []; reflexivity|apply no_half_turn|exact Ht|].
  destruct (der_segment se3_log se3_scale (Twist3 (V3 0 0 0) (V3 0 0 0)) c 0 pose3_one 1 shifted t 1 Hc) as [_ E'];
    [rewrite Ec; exists [], []; reflexivity|left; lra|].
  rewrite E in E'. cbn [N.eqb Pos.eqb] in E'.
  assert (Ew : w = se3_scale (se3_log (gmul (ginv shifted) pose3_one)) (/ (1 - 0))) by congruence.
  assert (El : se3_log (gmul (ginv shifted) pose3_one) = Twist3 (V3 (- 1) 0 0) (V3 0 0 0)).
  { rewrite <- (se3_log_exp_inverse (Twist3 (V3 (- 1) 0 0) (V3 0 0 0))).
    - f_equal. change pose3_one with (gone : pose3). rewrite gone_r.
      assert (X : Twist3 (V3 (- 1) 0 0) (V3 0 0 0) = se3_scale forwards (- 1)).
      { unfold se3_scale, vscale, forwards. cbn. f_equal; f_equal; ring. }
      rewrite X, se3_exp_straight by reflexivity. apply (gmul_cancel shifted). rewrite ginv_r.
      apply moved_acts. intros x. rewrite moved_mul. change (gone : pose3) with pose3_one. unfold moved, shifted, forwards.
      cbn [p3_rot p3_pos pose3_one w3_v]. rewrite !turned_one. generalize x. qring.
    - cbn [w3_w]. unfold vnorm. cbn. rewrite !Rmult_0_r, !Rplus_0_r, sqrt_0. apply PI_RGT_0. }
  rewrite Ew, El in Ho. replace forwards with (se3_scale (se3_scale (Twist3 (V3 (- 1) 0 0) (V3 0 0 0)) (/ (1 - 0))) (-1)); [exact Ho|].
  unfold se3_scale, vscale, forwards. cbn. f_equal; f_equal; field.
Qed.

(** The first derivative of a moving curve is not its velocity. *)
Theorem C96_derivative_refuted : exists (c : se3_curve) t w, consistent (s_mgr c) /\
  contents (s_mgr c) = [(0, pose3_one); (1, shifted)] /\ min_time (s_mgr c) < t < max_time (s_mgr c) /\
  has_velocity (se3_at c) t forwards /\ se3_der c t 1 = Ok w /\ w <> forwards /\ ~ has_velocity (se3_at c) t w.
Proof.
  destruct (curve_exists [(0, pose3_one); (1, shifted)] policy_default) as (g & c & _ & [Hc _] & Ec & _);
    [apply two_increasing; lra|reflexivity|].
  destruct (C96_right_iff_at_rest c 0 pose3_one 1 shifted (1 / 2) Hc) as (w & E & Hi);
    [rewrite Ec; exists [], []; reflexivity|apply no_half_turn|lra|].
  assert (N : ~ has_velocity (se3_at c) (1 / 2) w).
  { rewrite Hi. intros X. apply (f_equal (fun z => vx (p3_pos z))) in X. cbn in X. lra. }
  pose proof (shifted_velocity c (1 / 2) Hc Ec ltac:(lra)) as F.
  exists c, (1 / 2), w. split; [exact Hc|]. split; [exact Ec|]. split; [|split; [exact F|split; [exact E|split; [|exact N]]]].
  - rewrite (contents_first (s_mgr c) _ _ _ Ec), (contents_max (s_mgr c) [(0, pose3_one)] _ _ Ec). lra.
  - intros ->. now apply N.
Qed.

(** The velocities of a composition curve are zero, although it moves. *)
Theorem C96_composition_refuted : exists (c : comp R pose3) t,
  consistent (s_mgr (c_base c)) /\ consistent (s_mgr (c_corr c)) /\ comp_min_time c < t < comp_max_time c /\
  comp_velocity c t = Ok (V3 0 0 0) /\
  has_velocity (comp_evaluate se3_at se3_at c) t forwards /\
  forall w, has_velocity (comp_evaluate se3_at se3_at c) t w -> w3_v w <> V3 0 0 0.
Proof.
  destruct (curve_exists [(0, pose3_one); (1, shifted)] policy_default) as (g & c & _ & [Hc _] & Ec & _);
    [apply two_increasing; lra|reflexivity|].
  destruct (curve_exists [(0, pose3_one); (1, pose3_one)] policy_default) as (g' & k & _ & [Hk _] & Ek & _);
    [apply two_increasing; lra|reflexivity|].
  assert (F : has_velocity (comp_evaluate se3_at se3_at (Comp c k)) (1 / 2) forwards).
  { apply (has_velocity_local (se3_at c) _ 0 1); [lra| |apply shifted_velocity; auto; lra]. intros s Hs.
    unfold comp_evaluate. cbn [c_base c_corr].
    rewrite (C60_constant se3_exp se3_log se3_scale k pose3_one s se3_exp_log Hk).
    - cbn [bind]. destruct (C95_data c s Hc) as (_ & X & _); [rewrite Ec; discriminate|].
      rewrite (contents_first (s_mgr c) _ _ _ Ec), (contents_max (s_mgr c) [(0, pose3_one)] _ _ Ec) in X.
      destruct X as (v & ->); [lra|]. cbn [bind]. change pose3_one with (gone : pose3). now rewrite gone_l.
    - now rewrite Ek.
    - intros x. rewrite Ek. now intros [<-|[<-|[]]].
    - rewrite (contents_first (s_mgr k) _ _ _ Ek), (contents_max (s_mgr k) [(0, pose3_one)] _ _ Ek). lra. }
  exists (Comp c k), (1 / 2). split; [exact Hc|]. split; [exact Hk|]. split.
  { unfold comp_min_time, comp_max_time. cbn [c_base].
    rewrite (contents_first (s_mgr c) _ _ _ Ec), (contents_max (s_mgr c) [(0, pose3_one)] _ _ Ec). lra. }
  split; [reflexivity|]. split; [exact F|]. intros w Hw X. rewrite (velocity_unique _ _ _ _ Hw F) in X.
  apply (f_equal vx) in X. cbn in X. lra.
Qed.

Example C96_example : exists (c : se3_curve), consistent (s_mgr c) /\
  adjacent (contents (s_mgr c)) (0, pose3_one) (1, shifted) /\ ~ half_turn pose3_one shifted /\
  in_segment (max_time (s_mgr c)) 0 1 (1 / 4) /\ 1 / 4 - 0 <> 1 - 1 / 4 /\ (2 <= size (s_mgr c))%nat /\
  principal se3_exp se3_log se3_scale /\ exp_log se3_exp se3_log se3_scale /\
  se3_log (ginv (gmul (ginv pose3_one) shifted)) = se3_scale (se3_log (gmul (ginv pose3_one) shifted)) (-1).
Proof.
  destruct (curve_exists [(0, pose3_one); (1, shifted)] policy_default) as (g & c & _ & [Hc _] & Ec & _);
    [apply two_increasing; lra|reflexivity|].
  exists c. split; [exact Hc|]. split; [rewrite Ec; exists [], []; reflexivity|]. split; [apply no_half_turn|].
  split; [left; lra|]. split; [lra|]. split.
  { unfold size, contents in *. apply (f_equal (@length _)) in Ec. rewrite map_length in Ec. cbn in Ec. lia. }
  split; [apply se3_principal|]. split; [apply se3_exp_log|].
  apply se3_log_inverse. intros X. apply half_turn_angle in X. now apply no_half_turn.
Qed.
