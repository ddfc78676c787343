(** * C95: the semi-discrete curve of poses in space *)

From Coquelicot Require Import Coquelicot.
From Coq Require Import List Reals Lra Lia Bool Arith NArith ZArith.
From Verif Require Import Base TimeOrder TimeInst KeyGen Manager ManagerSpec ManagerProofs ManagerProofs2
  ManagerProofs3 Num Sampling SamplingSpec SamplingProofs HermiteE3 HermiteSpec HermiteE3Proofs Quat QuatSpec QuatProofs QuatLog
  Discrete DiscreteSpec DiscreteProofs Props_Manager Props_Discrete Props_Slerp2 Props_Piecewise Se3.
Import ListNotations.
Local Open Scope R_scope.

Local Notation se3_curve := (@slerp_curve R pose3).
Local Notation se3_at := (semi_evaluate se3_exp se3_log se3_scale).
Local Notation rp_at := (semi_evaluate rp_exp rp_log se3_scale).

(** The part [s] of the screw motion with the axis through [q] along [u], the angle [d]
    and the way [h] along the axis, applied to the point [x]. *)
Definition screw (u q : vec3 R) (d h s : R) (x : vec3 R) : vec3 R :=
  vadd (vadd q (vscale (s * h) u)) (about u (s * d) (vsub x q)).

(** ** Screw motions are the one-parameter subgroups *)

Lemma moved_mul a b x : moved (gmul a b) x = moved a (moved b x).
Proof.
  unfold moved. cbn [gmul pose3_GroupOps pose3_mul p3_rot p3_pos]. rewrite turned_mul, turned_add.
  set (y := turned _ (turned _ _)). set (z := turned _ _). generalize y, z, (p3_pos a). qring.
Qed.

Lemma moved_acts a b : (forall x, moved a x = moved b x) -> a = b.
Proof.
  intros H.
  assert (X : forall r, turned r (V3 0 0 0) = V3 0 0 0) by (intros r; unfold turned; generalize (r3 r); qring).
  assert (P : p3_pos a = p3_pos b).
  { specialize (H (V3 0 0 0)). unfold moved in H. rewrite !X in H.
    assert (Y : forall v : vec3 R, vadd (V3 0 0 0) v = v) by qring. now rewrite !Y in H. }
  apply pose3_ext; [|exact P]. apply rot3_acts. intros v. specialize (H v). unfold moved in H. rewrite P in H.
  assert (Y : forall v w : vec3 R, v = vsub (vadd v w) w) by qring.
  now rewrite (Y (turned (p3_rot a) v) (p3_pos b)), H, <- Y.
Qed.

Lemma turned_cross r a b : turned r (cross a b) = cross (turned r a) (turned r b).
Proof.
  unfold turned. pose proof (r3_unit r) as U. unfold unit_quat in U. destruct (r3 r) as [w x y z]. cbn [qw qx qy qz] in U.
  transitivity (vscale (w * w + x * x + y * y + z * z) (rotation_matrix (Quat w x y z) (cross a b))); [now rewrite U, vscale_1|].
  clear U. qring.
Qed.

Lemma turned_dot r a b : dot (turned r a) (turned r b) = dot a b.
Proof.
  unfold turned. pose proof (r3_unit r) as U. unfold unit_quat in U. destruct (r3 r) as [w x y z]. cbn [qw qx qy qz] in U.
  transitivity ((w * w + x * x + y * y + z * z) * (w * w + x * x + y * y + z * z) * dot a b); [|rewrite U; ring].
  unfold dot, rotation_matrix. cbn [qw qx qy qz vx vy vz]. ring.
Qed.

Lemma turned_about r u a v : turned r (about u a v) = about (turned r u) a (turned r v).
Proof. unfold about. now rewrite !turned_add, !turned_scale, turned_cross, turned_dot. Qed.

Lemma turned_sub r a b : turned r (vsub a b) = vsub (turned r a) (turned r b).
Proof. unfold turned. generalize (r3 r). qring. Qed.

Lemma screw_moved A u q d h s x : moved A (screw u q d h s x) = screw (turned (p3_rot A) u) (moved A q) d h s (moved A x).
Proof.
  unfold screw. unfold moved at 1. rewrite !turned_add, turned_scale, turned_about, turned_sub. unfold moved.
  replace (vsub (vadd (turned (p3_rot A) x) (p3_pos A)) (vadd (turned (p3_rot A) q) (p3_pos A)))
    with (vsub (turned (p3_rot A) x) (turned (p3_rot A) q)).
  2:{ generalize (turned (p3_rot A) x), (turned (p3_rot A) q), (p3_pos A). qring. }
  set (y := about _ _ _). generalize y, (turned (p3_rot A) q), (turned (p3_rot A) u), (p3_pos A). qring.
Qed.

Lemma about_zero u v : about u 0 v = v.
Proof. unfold about. rewrite cos_0, sin_0. generalize (dot u v). qring. Qed.

(** The twist of a screw motion. *)
Definition screw_twist (u q : vec3 R) (d h : R) : twist3 :=
  Twist3 (vsub (vscale h u) (vscale d (cross u q))) (vscale d u).

Lemma screw_exp u q d h s x : dot u u = 1 ->
  moved (se3_exp (se3_scale (screw_twist u q d h) s)) x = screw u q d h s x.
Proof.
  intros U. destruct (Req_dec d 0) as [->|Hd].
  - rewrite se3_exp_straight by (cbn; generalize u; qring). unfold moved, screw. cbn [p3_rot p3_pos screw_twist w3_v].
    rewrite turned_one, Rmult_0_r, about_zero. generalize u. qring.
  - unfold screw_twist. set (v := vsub _ _). rewrite se3_exp_turning by auto. unfold moved. cbn [p3_rot p3_pos].
    rewrite so3_about by exact U. rewrite (Rmult_comm d s).
    assert (Dv : dot u v = h).
    { transitivity (h * dot u u); [|rewrite U; ring]. unfold v, dot. cbn [vsub vscale cross vx vy vz]. numR. ring. }
    unfold displacement. rewrite Dv, (Rmult_comm d s). unfold screw. rewrite !about_comb.
    (* v in the coordinates of q *)
    assert (Ev : v = comb u q 0 (- d) h) by (unfold v, comb; generalize u, q; qring).
    rewrite Ev, comb_comb by exact U. set (th := s * d).
    replace (comb u (vsub x q) (cos th) (sin th) ((1 - cos th) * dot u (vsub x q)))
      with (vsub (comb u x (cos th) (sin th) ((1 - cos th) * dot u x)) (comb u q (cos th) (sin th) ((1 - cos th) * dot u q))).
    2:{ unfold comb, dot. qring. }
    set (X := comb u x _ _ _). unfold comb. 
    replace (sin th / d * 0 - (1 - cos th) / d * - d) with (1 - cos th) by (field; exact Hd).
    replace (sin th / d * - d + (1 - cos th) / d * 0) with (- sin th) by (field; exact Hd).
    replace ((s - sin th / d) * h + sin th / d * h + (1 - cos th) / d * - d * dot u q)
      with (s * h - (1 - cos th) * dot u q) by (field; exact Hd).
    generalize X, (dot u q), (cos th), (sin th). qring.
Qed.

(** Every twist is the one of a screw motion. *)
Lemma twist_screw w : exists u q d h, dot u u = 1 /\ d = vnorm (w3_w w) /\ w = screw_twist u q d h.
Proof.
  destruct (twist_cases w) as [E|(u & a & U & Ea & Ha & E)].
  - destruct (axis_of (w3_v w)) as (u & U & Eu & _). exists u, (V3 0 0 0), 0, (vnorm (w3_v w)).
    split; [exact U|]. split.
    + rewrite E. unfold vnorm. cbn. rewrite !Rmult_0_r, !Rplus_0_r. symmetry. apply sqrt_0.
    + destruct w as [v o]. cbn [w3_v w3_w] in *. unfold screw_twist. f_equal.
      * rewrite Eu at 1. generalize u, (vnorm v). qring.
      * rewrite E. generalize u. qring.
  - set (v := w3_v w) in *. exists u, (vscale (/ a) (cross u v)), a, (dot u v). split; [exact U|]. split; [exact Ea|].
    rewrite E. unfold screw_twist. f_equal.
    transitivity (vsub (vscale (dot u v) u) (vsub (vscale (dot u v) u) (vscale (dot u u) v))).
    + rewrite U. generalize (dot u v), v, u. qring.
    + replace (vscale a (cross u (vscale (/ a) (cross u v)))) with (vscale (a * / a) (cross u (cross u v)))
        by (generalize (/ a), u, v; qring).
      rewrite Rinv_r, vscale_1 by lra. unfold dot. generalize u, v. qring.
Qed.

(** ** C95: the motion between two coefficients *)

Section Segment.
Context {W : Type} (vexp : W -> pose3) (vlog : pose3 -> W) (vscale : W -> R -> W).
Hypothesis Hstart : forall g, vexp (vscale (vlog g) 0) = gone.
Hypothesis Hend : forall g, vexp (vscale (vlog g) 1) = g.
Local Notation ev := (semi_evaluate vexp vlog vscale).

Lemma blend_starts : starts (blended vexp vlog vscale).
Proof.
  intros ta va tb vb Hlt. unfold blended. numR. replace ((ta - ta) / (tb - ta)) with 0 by (field; lra). now rewrite Hstart, gone_r.
Qed.

Lemma blend_value (c : se3_curve) u ta A tb B w t : consistent (s_mgr c) ->
  contents (s_mgr c) = u ++ (ta, A) :: (tb, B) :: w -> ta <= t <= tb ->
  ev c t = Ok (gmul A (vexp (vscale (vlog (gmul (ginv A) B)) ((t - ta) / (tb - ta))))).
Proof.
  intros Hc E Ht. pose proof (consistent_incr _ _ _ _ _ _ _ Hc E) as Hlt.
  change (ev c t = Ok (blended vexp vlog vscale ta A tb B t)).
  destruct (Req_dec t ta) as [->|Ha]; [|destruct (Req_dec t tb) as [->|Hb]].
  - rewrite blend_starts by exact Hlt. apply pw_at; auto; [apply blend_starts|]. rewrite E, in_app_iff. simpl. auto.
  - replace (blended vexp vlog vscale ta A tb B tb) with B.
    + apply pw_at; auto; [apply blend_starts|]. rewrite E, in_app_iff. simpl. auto.
    + unfold blended. numR. replace ((tb - ta) / (tb - ta)) with 1 by (field; lra). now rewrite Hend, ginv_cancel.
  - apply (pw_between _ c u ta A tb B w t); auto. lra.
Qed.
End Segment.

Lemma se3_zero g : se3_exp (se3_scale (se3_log g) 0) = gone.
Proof. apply (el_zero _ _ _ se3_exp_log). Qed.
Lemma se3_one g : se3_exp (se3_scale (se3_log g) 1) = g.
Proof. apply (el_inverse _ _ _ se3_exp_log). Qed.

(** Between two coefficients the body makes a screw motion: it turns about a fixed axis in
    space at a constant rate, by an angle of at most PI, while it moves along this axis at
    a constant rate (a motion along a straight line, if the angle is 0). *)
Theorem C95_screw : forall (c : se3_curve) ta A tb B,
  consistent (s_mgr c) -> adjacent (contents (s_mgr c)) (ta, A) (tb, B) ->
  ta < tb /\ exists u q d h, dot u u = 1 /\ 0 <= d <= PI /\
  forall t, ta <= t <= tb -> exists P, se3_at c t = Ok P /\
    forall x, moved P x = screw u q d h ((t - ta) / (tb - ta)) (moved A x).
Proof.
  intros c ta A tb B Hc (u0 & w & E). split; [exact (consistent_incr _ _ _ _ _ _ _ Hc E)|].
  destruct (twist_screw (se3_log (gmul (ginv A) B))) as (u & q & d & h & U & Ed & Ex).
  exists (turned (p3_rot A) u), (moved A q), d, h. split; [now rewrite turned_dot|].
  split; [rewrite Ed; apply angle_bounds|]. intros t Ht. eexists.
  split; [apply (blend_value _ _ _ se3_zero se3_one c u0 ta A tb B w t Hc E Ht)|].
  intros x. rewrite moved_mul, Ex, screw_exp by exact U. apply screw_moved.
Qed.

(** There is only one screw motion by less than a half turn from one pose to another. *)
Theorem C95_screw_unique : forall A B u q d h u' q' d' h',
  dot u u = 1 -> 0 <= d < PI -> dot u' u' = 1 -> 0 <= d' < PI ->
  (forall x, moved B x = screw u q d h 1 (moved A x)) -> (forall x, moved B x = screw u' q' d' h' 1 (moved A x)) ->
  d = d' /\ forall s x, screw u q d h s x = screw u' q' d' h' s x.
Proof.
  intros A B u q d h u' q' d' h' U Hd U' Hd' H H'.
  assert (X : screw_twist u q d h = screw_twist u' q' d' h').
  { rewrite <- (se3_log_exp_inverse (screw_twist u q d h)), <- (se3_log_exp_inverse (screw_twist u' q' d' h'));
      cbn [screw_twist w3_w]; try (rewrite vnorm_axis, Rabs_pos_eq by (auto; lra); lra).
    f_equal. apply moved_acts. intros x.
    rewrite <- (vscale_zero_twist (screw_twist u q d h)), <- (vscale_zero_twist (screw_twist u' q' d' h')), !screw_exp by assumption.
    assert (Ex : x = moved A (moved (ginv A) x)).
    { rewrite <- moved_mul, ginv_r. unfold moved. cbn [gone pose3_GroupOps pose3_one p3_rot p3_pos]. rewrite turned_one. generalize x. qring. }
    now rewrite Ex, <- H, <- H'. }
  split.
  - apply (f_equal (fun w => vnorm (w3_w w))) in X. cbn [screw_twist w3_w] in X.
    now rewrite !vnorm_axis, !Rabs_pos_eq in X by (auto; lra).
  - intros s x. rewrite <- !screw_exp by assumption. now rewrite X.
Qed.

(** The place of the point [x] of the body at time [t]. *)
Definition place (at_ : R -> outcome pose3) (x : vec3 R) (t : R) : vec3 R :=
  match at_ t with Ok P => moved P x | _ => V3 0 0 0 end.

Lemma screw_derivative u q d h a k x i t : dot u u = 1 ->
  derivable_pt_lim (fun s => coord i (screw u q d h ((s - a) * k) x)) t
    (coord i (vadd (vscale (k * h) u) (vscale (k * d) (cross u (vsub (screw u q d h ((t - a) * k) x) q))))).
Proof.
  intros U. unfold screw. set (y := vsub x q).
  assert (F : forall r, coord i (vadd (vadd q (vscale (r * k * h) u)) (about u (r * k * d) y)) =
     coord i q + r * k * h * coord i u + (cos (r * k * d) * coord i y + sin (r * k * d) * coord i (cross u y) + (1 - cos (r * k * d)) * dot u y * coord i u)).
  { intros r. unfold about. destruct i; cbn [coord vadd vscale vx vy vz]; numR; ring. }
  assert (G : coord i (vadd (vscale (k * h) u) (vscale (k * d)
       (cross u (vsub (vadd (vadd q (vscale ((t - a) * k * h) u)) (about u ((t - a) * k * d) y)) q)))) =
     k * h * coord i u + k * d * (cos ((t - a) * k * d) * coord i (cross u y) + sin ((t - a) * k * d) * (dot u y * coord i u - coord i y))).
  { rewrite about_comb. set (th := (t - a) * k * d).
    transitivity (k * h * coord i u + k * d * (cos th * coord i (cross u y) + sin th * (dot u y * coord i u - dot u u * coord i y)));
      [|rewrite U; ring].
    unfold comb. generalize y, (cos th), (sin th). intros y' c s. destruct i; unfold dot; cbn [coord vadd vsub vscale cross vx vy vz]; numR; ring. }
  rewrite G. apply is_derive_Reals. eapply is_derive_ext; [intros s; symmetry; apply F|].
  auto_derive; [trivial|]. unfold Rminus. ring.
Qed.

(** The velocity is a constant field in space: with a fixed angular velocity [o] and
    velocity [v], the velocity of the point of the body that is at [y] is v + o x y. *)
Theorem C95_velocity : forall (c : se3_curve) ta A tb B,
  consistent (s_mgr c) -> adjacent (contents (s_mgr c)) (ta, A) (tb, B) ->
  exists v o, (tb - ta) * vnorm o <= PI /\ forall x t i, ta < t < tb ->
    derivable_pt_lim (fun s => coord i (place (se3_at c) x s)) t
      (coord i (vadd v (cross o (place (se3_at c) x t)))).
Proof.
  intros c ta A tb B Hc Ha. destruct (C95_screw c ta A tb B Hc Ha) as (Hlt & u & q & d & h & U & Hd & Hs).
  set (k := / (tb - ta)).
  exists (vsub (vscale (k * h) u) (vscale (k * d) (cross u q))), (vscale (k * d) u). split.
  { rewrite vnorm_axis by exact U. assert (0 < k) by (apply Rinv_0_lt_compat; lra).
    rewrite Rabs_pos_eq by (apply Rmult_le_pos; lra). replace ((tb - ta) * (k * d)) with d by (unfold k; field; lra). lra. }
  intros x t i Ht.
  assert (E : forall s, ta < s < tb -> place (se3_at c) x s = screw u q d h ((s - ta) * k) (moved A x)).
  { intros s Hs'. unfold place. destruct (Hs s ltac:(lra)) as (P & -> & HP). apply HP. }
  apply (derivable_local (fun s => coord i (screw u q d h ((s - ta) * k) (moved A x))) _ ta tb t); [exact Ht| |].
  - intros s Hs'. now rewrite E.
  - rewrite E by exact Ht. eapply dlim_eq; [|apply screw_derivative; exact U]. f_equal.
    generalize (screw u q d h ((t - ta) * k) (moved A x)), u, q. qring.
Qed.

(** ** Inserting points of the curve, and reversing it *)

Lemma se3_principal : principal se3_exp se3_log se3_scale.
Proof.
  split.
  - intros g a Ha. destruct (Req_dec a 1) as [->|Hx]; [now rewrite !vscale_zero_twist, se3_exp_log_inverse|].
    apply se3_log_exp_inverse. cbn [se3_scale w3_w]. rewrite vnorm_scale, Rabs_pos_eq by lra.
    change (a * angle (p3_rot g) < PI). pose proof (angle_bounds (p3_rot g)). pose proof PI_RGT_0. nra.
  - intros w a b. unfold se3_scale. cbn [w3_v w3_w]. rewrite !vscale_vscale. f_equal; f_equal; ring.
Qed.

Theorem C95_refine : forall g (c : se3_curve) s v, sane g (s_mgr c) -> (g + 1 < 2 ^ 64)%N -> se3_at c s = Ok v ->
  exists g' m' k, insert_coefficient g (s_mgr c) s v = Ok (g', m', k) /\ sane g' m' /\ In (s, v) (contents m') /\
    forall t, se3_at (Slerp m' (s_pol c)) t = se3_at c t.
Proof. exact (C76_refine _ _ _ se3_exp_log se3_principal). Qed.

(** The rotation from [a] to [b] is a half turn: it is not the identity, and done twice it is. *)
Definition half_turn (a b : pose3) : Prop :=
  exists r, p3_rot b = rot3_mul r (p3_rot a) /\ r <> rot3_one /\ rot3_mul r r = rot3_one.

Lemma se3_log_inverse (g : pose3) : angle (p3_rot g) <> PI -> se3_log (ginv g) = se3_scale (se3_log g) (-1).
Proof.
  intros Hx. pose proof (angle_bounds (p3_rot g)) as B.
  rewrite <- (se3_log_exp_inverse (se3_scale (se3_log g) (-1))).
  - f_equal. apply (gmul_cancel g). rewrite ginv_r.
    transitivity (gmul (se3_exp (se3_scale (se3_log g) 1)) (se3_exp (se3_scale (se3_log g) (-1)))).
    + rewrite <- (el_add _ _ _ se3_exp_log). replace (1 + -1) with 0 by ring. symmetry. apply (el_zero _ _ _ se3_exp_log).
    + now rewrite (el_inverse _ _ _ se3_exp_log g).
  - cbn [se3_scale w3_w]. rewrite vnorm_scale, Rabs_left by lra. change (- -1 * angle (p3_rot g) < PI). lra.
Qed.

Lemma half_turn_angle a b : angle (p3_rot (gmul (ginv a) b)) = PI -> half_turn a b.
Proof.
  intros E. cbn [gmul ginv pose3_GroupOps pose3_mul pose3_inv p3_rot] in E.
  set (r := rot3_mul (rot3_inv (p3_rot a)) (p3_rot b)) in *.
  assert (Er : r <> rot3_one).
  { intros X. rewrite X in E. unfold angle in E. rewrite so3_log_one in E. pose proof PI_RGT_0.
    assert (vnorm (V3 0 0 0) = 0); [|lra]. unfold vnorm. cbn. rewrite !Rmult_0_r, !Rplus_0_r. apply sqrt_0. }
  assert (Err : rot3_mul r r = rot3_one).
  { apply rot3_acts. intros v. rewrite turned_mul, turned_one. rewrite angle_acos in E. pose proof (front_real r) as F.
    assert (Z : qw (r3 r) = 0). { rewrite <- (cos_acos (qw (r3 r))) by lra. replace (acos (qw (r3 r))) with (PI / 2) by lra. apply cos_PI2. }
    unfold turned. rewrite <- rotation_mul. pose proof (r3_unit r) as U. destruct (r3 r) as [w x y z]. unfold unit_quat in U.
    cbn [qw qx qy qz] in *. subst w.
    assert (X : qmul (Quat 0 x y z) (Quat 0 x y z) = qneg qone).
    { apply quat_ext; cbn [qmul qneg qone qw qx qy qz]; numR; try ring. cbn. lra. }
    rewrite X, rotation_neg. apply rotation_one. }
  assert (Eb : p3_rot b = rot3_mul (p3_rot a) r) by (unfold r; now rewrite rot3_assoc, rot3_inv_r, rot3_one_l).
  exists (rot3_mul (rot3_mul (p3_rot a) r) (rot3_inv (p3_rot a))). split; [|split].
  - now rewrite <- rot3_assoc, rot3_inv_l, rot3_one_r.
  - intros X. apply Er. apply (f_equal (fun z => rot3_mul (rot3_inv (p3_rot a)) (rot3_mul z (p3_rot a)))) in X.
    rewrite <- (rot3_assoc (rot3_mul (p3_rot a) r)), rot3_inv_l, rot3_one_r, rot3_assoc, rot3_inv_l, !rot3_one_l, rot3_inv_l in X. exact X.
  - rewrite <- (rot3_assoc (rot3_mul (p3_rot a) r)), (rot3_assoc (rot3_inv (p3_rot a))), (rot3_assoc (rot3_inv (p3_rot a)) (p3_rot a)).
    now rewrite rot3_inv_l, rot3_one_l, (rot3_assoc (rot3_mul (p3_rot a) r)), <- (rot3_assoc (p3_rot a)), Err, rot3_one_r, rot3_inv_r.
Qed.

(** Run backwards, the curve goes through the same poses, if there is no half turn
    between two adjacent coefficients. *)
Theorem C95_reversed : forall (c c' : se3_curve), consistent (s_mgr c) -> consistent (s_mgr c') ->
  contents (s_mgr c) <> [] -> contents (s_mgr c') = backwards (contents (s_mgr c)) ->
  (forall ta va tb vb, adjacent (contents (s_mgr c)) (ta, va) (tb, vb) -> ~ half_turn va vb) ->
  forall t, se3_at c' (- t) = se3_at c t.
Proof.
  intros c c' Hc Hc' Hn Eb Hop. apply (C76_reversed _ _ _ se3_exp_log se3_principal); auto.
  intros ta va tb vb Hadj. apply se3_log_inverse. intros X. apply (Hop _ _ _ _ Hadj). now apply half_turn_angle.
Qed.

(** ** The other reading: position and rotation separately *)

Lemma rp_zero g : rp_exp (se3_scale (rp_log g) 0) = gone.
Proof.
  unfold rp_exp, se3_scale, rp_log. cbn [w3_v w3_w]. apply pose3_ext; cbn [p3_rot p3_pos].
  - rewrite vscale_0. apply so3_exp_zero.
  - apply vscale_0.
Qed.
Lemma rp_one g : rp_exp (se3_scale (rp_log g) 1) = g.
Proof.
  unfold rp_exp, se3_scale, rp_log. cbn [w3_v w3_w]. rewrite !vscale_1. apply pose3_ext; cbn [p3_rot p3_pos]; [|reflexivity].
  apply so3_exp_log.
Qed.

(** If exponential and logarithm leave the position alone, the curve still passes through
    the data, the position moves on a straight line and the rotation about a fixed axis. *)
Theorem C95_componentwise : forall (c : se3_curve), consistent (s_mgr c) ->
  (forall t v, In (t, v) (contents (s_mgr c)) -> rp_at c t = Ok v) /\
  (contents (s_mgr c) <> [] -> forall t, t < min_time (s_mgr c) \/ max_time (s_mgr c) < t -> rp_at c t = Abort) /\
  (forall ta A tb B, adjacent (contents (s_mgr c)) (ta, A) (tb, B) ->
    ta < tb /\ exists u d, dot u u = 1 /\ 0 <= d <= PI /\
    forall t, ta <= t <= tb -> exists P, rp_at c t = Ok P /\
      let al := (t - ta) / (tb - ta) in
      p3_pos P = vadd (vscale (1 - al) (p3_pos A)) (vscale al (p3_pos B)) /\
      forall x, turned (p3_rot P) x = about u (al * d) (turned (p3_rot A) x)).
Proof.
  intros c Hc. split; [|split].
  - intros t v Hi. apply pw_at; auto. apply blend_starts, rp_zero.
  - intros Hn t Ht. now apply pw_outside.
  - intros ta A tb B (u0 & w & E). split; [exact (consistent_incr _ _ _ _ _ _ _ Hc E)|].
    set (o := so3_log (p3_rot (gmul (ginv A) B))). destruct (axis_of o) as (u & U & Eo & Ho).
    exists (turned (p3_rot A) u), (vnorm o). split; [now rewrite turned_dot|]. split; [apply angle_bounds|].
    intros t Ht. eexists. split; [apply (blend_value _ _ _ rp_zero rp_one c u0 ta A tb B w t Hc E Ht)|].
    cbv zeta. set (al := (t - ta) / (tb - ta)). cbn [gmul pose3_GroupOps pose3_mul p3_rot p3_pos rp_exp se3_scale rp_log w3_v w3_w ginv pose3_inv].
    split.
    + rewrite turned_scale, turned_add, turned_inv_r.
      assert (X : forall r v, turned r (vneg v) = vneg (turned r v)) by (intros r v; unfold turned; generalize (r3 r); qring).
      rewrite X, turned_inv_r. generalize (p3_pos A), (p3_pos B). qring.
    + intros x. rewrite turned_mul. change (so3_log _) with o. rewrite Ho, turned_about. f_equal. ring.
Qed.

(** ** Half turns *)

(** The half turns about the first and the third axis. *)
Lemma unit_x : unit_quat (Quat 0 1 0 0). Proof. unfold unit_quat. cbn. ring. Qed.
Lemma unit_z : unit_quat (Quat 0 0 0 1). Proof. unfold unit_quat. cbn. ring. Qed.
Definition half_x : rot3 := rot3_of _ unit_x.
Definition half_z : rot3 := rot3_of _ unit_z.

Lemma half_upright x z : (0 < x /\ z = 0) \/ (x = 0 /\ 0 < z) -> upright (Quat 0 x 0 z) = Quat 0 x 0 z.
Proof.
  intros H. apply upright_id. unfold front. cbn [qw qx qy qz].
  repeat match goal with |- context [Rlt_dec ?a ?b] => destruct (Rlt_dec a b) end; try reflexivity; lra.
Qed.

Lemma half_log x z : (x = 1 /\ z = 0) \/ (x = 0 /\ z = 1) -> std_log (Quat 0 x 0 z) = vscale PI (V3 x 0 z).
Proof.
  intros H. unfold std_log. assert (N : vnorm (qimag (Quat 0 x 0 z)) = 1).
  { unfold vnorm. cbn. replace (x * x + 0 * 0 + z * z) with 1 by (destruct H as [[-> ->]|[-> ->]]; ring). apply sqrt_1. }
  rewrite N. destruct (Req_EM_T 1 0) as [X|_]; [lra|]. cbn [qw]. destruct (Rlt_dec 0 0) as [X|_]; [lra|].
  rewrite Rabs_R0, acos_0. replace (2 * (PI / 2) / 1 * 1) with PI by field. reflexivity.
Qed.

Lemma half_x_log : so3_log half_x = vscale PI (V3 1 0 0).
Proof. unfold so3_log, half_x. cbn [r3 rot3_of]. rewrite half_upright by lra. apply half_log. lra. Qed.
Lemma half_z_log : so3_log half_z = vscale PI (V3 0 0 1).
Proof. unfold so3_log, half_z. cbn [r3 rot3_of]. rewrite half_upright by lra. apply half_log. lra. Qed.
Lemma half_x_inv : rot3_inv half_x = half_x.
Proof.
  apply rot3_acts. intros v. unfold rot3_inv, half_x. rewrite !turned_of. cbn [r3 rot3_of]. rewrite half_upright by lra.
  generalize v. qring.
Qed.

Lemma about_half u v : about u (PI / 2) v = vadd (cross u v) (vscale (dot u v) u).
Proof. unfold about. rewrite cos_PI2, sin_PI2. generalize (dot u v). qring. Qed.

(** With a half turn the two ways are different. *)
Theorem C95_reversed_refuted : exists (c c' : se3_curve) t, consistent (s_mgr c) /\ consistent (s_mgr c') /\
  contents (s_mgr c) <> [] /\ contents (s_mgr c') = backwards (contents (s_mgr c)) /\ se3_at c' (- t) <> se3_at c t.
Proof.
  set (A := pose3_one). set (B := Pose3 half_x (V3 0 0 0)).
  destruct (curve_exists [(0, A); (2, B)] policy_default) as (g & c & _ & [Hc _] & Ec & _);
    [apply two_increasing; lra|reflexivity|].
  destruct (curve_exists [(- 2, B); (- 0, A)] policy_default) as (g' & c' & _ & [Hc' _] & Ec' & _);
    [apply two_increasing; lra|reflexivity|].
  exists c, c', 1. split; [exact Hc|]. split; [exact Hc'|]. split; [now rewrite Ec|]. split; [now rewrite Ec', Ec|].
  rewrite (blend_value _ _ _ se3_zero se3_one c [] 0 A 2 B [] 1 Hc Ec) by lra.
  rewrite (blend_value _ _ _ se3_zero se3_one c' [] (- 2) B (- 0) A [] (Ropp 1) Hc' Ec') by lra.
  intros X. apply (f_equal (fun o => match o with Ok P => turned (p3_rot P) (V3 0 1 0) | _ => V3 0 0 0 end)) in X.
  cbv beta iota in X.
  assert (H1 : p3_rot (gmul (ginv A) B) = half_x).
  { unfold A, B. cbn [gmul ginv pose3_GroupOps pose3_mul pose3_inv p3_rot pose3_one].
    rewrite <- (rot3_one_l (rot3_mul (rot3_inv rot3_one) half_x)), rot3_assoc, rot3_inv_r. apply rot3_one_l. }
  assert (H2 : p3_rot (gmul (ginv B) A) = half_x).
  { unfold A, B. cbn [gmul ginv pose3_GroupOps pose3_mul pose3_inv p3_rot pose3_one].
    now rewrite rot3_one_r, half_x_inv. }
  assert (Hr : forall g P s, p3_rot P = half_x -> p3_rot (gmul g (se3_exp (se3_scale (se3_log P) s))) =
     rot3_mul (p3_rot g) (so3_exp (vscale s (vscale PI (V3 1 0 0))))).
  { intros g0 P s E. cbn [gmul pose3_GroupOps pose3_mul p3_rot se3_exp se3_scale w3_w se3_log]. now rewrite E, half_x_log. }
  rewrite !Hr in X by assumption.
  rewrite !turned_mul, !so3_about in X by (unfold dot; cbn; ring).
  replace (PI * ((Ropp 1 - -2) / (- 0 - -2))) with (PI / 2) in X by field.
  replace (PI * ((1 - 0) / (2 - 0))) with (PI / 2) in X by field.
  rewrite !about_half in X. unfold A, B in X. cbn [p3_rot pose3_one] in X. rewrite turned_one in X. unfold half_x in X. rewrite turned_of in X.
  apply (f_equal (@vz R)) in X. unfold dot in X. cbn in X. lra.
Qed.

(** ** Examples *)

(** A half turn about the third axis, and one unit along the first.  The way is half a
    circle below the straight line, or the straight line. *)
Definition target : pose3 := Pose3 half_z (V3 1 0 0).

Lemma target_log s : se3_scale (se3_log target) s = se3_scale (Twist3 (V3 0 (- PI / 2) 0) (vscale PI (V3 0 0 1))) s.
Proof.
  f_equal. unfold se3_log, target. cbn [p3_rot p3_pos]. rewrite half_z_log. cbv zeta. f_equal.
  rewrite vnorm_axis by (unfold dot; cbn; ring). pose proof PI_RGT_0 as Hp. rewrite Rabs_pos_eq by lra.
  destruct (Req_EM_T PI 0) as [X|_]; [lra|]. rewrite sin_PI, cos_PI.
  apply vec3_ext; intros []; cbn [coord vadd vscale cross vx vy vz]; numR; field; lra.
Qed.

Lemma from_one g : gmul (ginv pose3_one) g = g.
Proof. change pose3_one with (gone : pose3). rewrite <- (gone_l (gmul (ginv gone) g)). apply ginv_cancel. Qed.

Example C95_example : exists (c : se3_curve) P Q, consistent (s_mgr c) /\
  adjacent (contents (s_mgr c)) (0, pose3_one) (2, target) /\
  se3_at c 1 = Ok P /\ p3_pos P = V3 (1 / 2) (- 1 / 2) 0 /\ rp_at c 1 = Ok Q /\ p3_pos Q = V3 (1 / 2) 0 0.
Proof.
  destruct (curve_exists [(0, pose3_one); (2, target)] policy_default) as (g & c & _ & [Hc _] & Ec & _);
    [apply two_increasing; lra|reflexivity|].
  exists c. eexists. eexists. split; [exact Hc|]. split; [rewrite Ec; exists [], []; reflexivity|].
  split; [apply (blend_value _ _ _ se3_zero se3_one c [] 0 pose3_one 2 target [] 1 Hc Ec); lra|]. split.
  - rewrite from_one, target_log, se3_exp_turning by (unfold dot; cbn; try ring; pose proof PI_RGT_0; lra).
    cbn [gmul pose3_GroupOps pose3_mul pose3_one p3_rot p3_pos]. rewrite turned_one. unfold displacement.
    replace (PI * ((1 - 0) / (2 - 0))) with (PI / 2) by field. rewrite sin_PI2, cos_PI2. pose proof PI_RGT_0.
    unfold comb, dot. apply vec3_ext; intros []; cbn [coord vadd vscale cross vx vy vz]; numR; field; lra.
  - split; [apply (blend_value _ _ _ rp_zero rp_one c [] 0 pose3_one 2 target [] 1 Hc Ec); lra|].
    rewrite from_one. cbn [gmul pose3_GroupOps pose3_mul pose3_one p3_rot p3_pos rp_exp se3_scale rp_log target w3_v]. rewrite turned_one.
    apply vec3_ext; intros []; cbn [coord vadd vscale vx vy vz]; numR; field.
Qed.

(** With position and rotation separate, equal times do not make equal motions. *)
Theorem C95_componentwise_refuted : exists (c : se3_curve) ta A tb B s t s' t' p q p' q',
  consistent (s_mgr c) /\ adjacent (contents (s_mgr c)) (ta, A) (tb, B) /\
  ta <= s <= tb /\ ta <= t <= tb /\ ta <= s' <= tb /\ ta <= t' <= tb /\ t - s = t' - s' /\
  rp_at c s = Ok p /\ rp_at c t = Ok q /\ rp_at c s' = Ok p' /\ rp_at c t' = Ok q' /\
  gmul (ginv p) q <> gmul (ginv p') q'.
Proof.
  destruct (curve_exists [(0, pose3_one); (2, target)] policy_default) as (g & c & _ & [Hc _] & Ec & _);
    [apply two_increasing; lra|reflexivity|].
  pose proof (blend_value _ _ _ rp_zero rp_one c [] 0 pose3_one 2 target [] 1 Hc Ec ltac:(lra)) as E1.
  destruct (C95_componentwise c Hc) as (Hat & _ & _).
  exists c, 0, pose3_one, 2, target, 0, 1, 1, 2. do 4 eexists.
  split; [exact Hc|]. split; [rewrite Ec; exists [], []; reflexivity|].
  do 4 (split; [lra|]). split; [ring|]. split; [apply Hat; rewrite Ec; left; reflexivity|]. split; [exact E1|].
  split; [exact E1|]. split; [apply Hat; rewrite Ec; right; left; reflexivity|].
  rewrite from_one. intros X. apply (f_equal p3_pos) in X. rewrite from_one in X.
  cbn [gmul ginv pose3_GroupOps pose3_mul pose3_inv pose3_one p3_rot p3_pos rp_exp se3_scale rp_log target w3_v w3_w] in X.
  rewrite turned_one, half_z_log, !rot3_one_l in X.
  set (r := so3_exp (vscale ((1 - 0) / (2 - 0)) (vscale PI (V3 0 0 1)))) in *.
  assert (Z0 : forall v : vec3 R, vadd (V3 0 0 0) v = v) by qring. rewrite !Z0 in X.
  apply (f_equal (turned r)) in X. rewrite turned_add in X.
  assert (N : forall v, turned r (vneg v) = vneg (turned r v)) by (intros v; unfold turned; generalize (r3 r); qring).
  rewrite N, !turned_inv_r in X. unfold r in X. rewrite !so3_about in X by (unfold dot; cbn; ring).
  replace (PI * ((1 - 0) / (2 - 0))) with (PI / 2) in X by field. rewrite !about_half in X.
  apply (f_equal (@vx R)) in X. unfold dot in X. cbn in X. numR. lra.
Qed.

(** Through the data, and defined exactly on their range. *)
Theorem C95_data : forall (c : se3_curve) t, consistent (s_mgr c) -> contents (s_mgr c) <> [] ->
  (forall v, In (t, v) (contents (s_mgr c)) -> se3_at c t = Ok v) /\
  (min_time (s_mgr c) <= t <= max_time (s_mgr c) -> exists v, se3_at c t = Ok v) /\
  (t < min_time (s_mgr c) \/ max_time (s_mgr c) < t -> se3_at c t = Abort).
Proof.
  intros c t Hc Hn. split.
  - intros v. apply C60_at_coefficient; [apply se3_exp_log|exact Hc].
  - apply C60_range; [apply se3_exp_log|exact Hc|exact Hn].
Qed.

(** No half turn: the hypotheses of [C95_reversed], [C95_refine] and [C95_screw_unique]. *)
Example C95_still : exists g (c c' : se3_curve), sane g (s_mgr c) /\ consistent (s_mgr c') /\ (g + 1 < 2 ^ 64)%N /\
  contents (s_mgr c) = [(0, pose3_one); (2, pose3_one)] /\ contents (s_mgr c') = backwards (contents (s_mgr c)) /\
  (forall ta va tb vb, adjacent (contents (s_mgr c)) (ta, va) (tb, vb) -> ~ half_turn va vb) /\
  se3_at c 1 = Ok pose3_one.
Proof.
  destruct (curve_exists [(0, pose3_one); (2, pose3_one)] policy_default) as (g & c & Eg & [Hc Hb] & Ec & _);
    [apply two_increasing; lra|reflexivity|].
  destruct (curve_exists [(- 2, pose3_one); (- 0, pose3_one)] policy_default) as (g' & c' & _ & [Hc' _] & Ec' & _);
    [apply two_increasing; lra|reflexivity|].
  exists g, c, c'. split; [now split|]. split; [exact Hc'|]. split; [rewrite Eg; reflexivity|].
  split; [exact Ec|]. split; [now rewrite Ec', Ec|]. split.
  - intros ta va tb vb (u & w & E) (r & Er & Hr & _). rewrite Ec in E. apply Hr.
    assert (X : va = pose3_one /\ vb = pose3_one).
    { destruct u as [|[? ?] [|? [|]]]; cbn in E; try discriminate; injection E; intros; subst; auto. }
    destruct X as [-> ->]. cbn [p3_rot pose3_one] in Er. now rewrite rot3_one_r in Er.
  - rewrite (C60_constant se3_exp se3_log se3_scale c pose3_one 1 se3_exp_log Hc); auto; [now rewrite Ec| |].
    + intros x. rewrite Ec. now intros [<-|[<-|[]]].
    + rewrite (contents_first (s_mgr c) _ _ _ Ec), (contents_max (s_mgr c) [(0, pose3_one)] _ _ Ec). lra.
Qed.
