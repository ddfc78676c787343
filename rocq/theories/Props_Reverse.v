(** * C110: playing SE3 curves backwards *)

From Coquelicot Require Import Coquelicot.
From Coq Require Import List Bool Arith NArith ZArith Reals Lra Lia Psatz.
From Verif Require Import Base TimeOrder TimeInst KeyGen Manager ManagerSpec ManagerProofs ManagerProofs3 Num Sampling SamplingSpec SamplingProofs HermiteE3 HermiteSpec
  HermiteE3Proofs Props_HermiteE3 Props_Hermite2 Quat QuatSpec QuatProofs QuatLog QuatDist HermiteSE3 HermiteSE3Spec HermiteSE3Proofs HermiteSE3Curve
  HermiteSE3Motion Props_HermiteSE3 Props_HalfTurn Props_Speed.
Import ListNotations.
Local Open Scope R_scope.

(** ** Logarithms of inverses *)

Lemma exp_unique u v : vnorm u <= PI -> vnorm v <= PI -> qw (qexp v) <> 0 -> same_rotation (qexp u) (qexp v) -> u = v.
Proof.
  intros Lu Lv Nv H. pose proof (vnorm_pos u) as Pu. pose proof (vnorm_pos v) as Pv. pose proof PI_RGT_0 as PP.
  assert (Cu : 0 <= cos (vnorm u / 2)) by (apply cos_ge_0; lra). assert (Cv : 0 <= cos (vnorm v / 2)) by (apply cos_ge_0; lra).
  unfold qexp in Nv. cbn [qw] in Nv.
  assert (E : qexp u = qexp v).
  { destruct H as [H|H]; [exact H|exfalso]. apply (f_equal qw) in H. unfold qexp, qneg in H. cbn [qw] in H. lra. }
  assert (Ew : cos (vnorm u / 2) = cos (vnorm v / 2)) by (apply (f_equal qw) in E; exact E).
  assert (En : vnorm u = vnorm v) by (apply (f_equal acos) in Ew; rewrite !acos_cos in Ew by lra; lra).
  destruct (Req_dec (vnorm v) 0) as [Z|Z].
  - rewrite (vnorm_zero v Z). apply vnorm_zero. lra.
  - assert (Ps : 0 < sin (vnorm v / 2)) by (apply sin_gt_0; lra). unfold qexp in E. cbv zeta in E. rewrite En in E.
    destruct (Req_EM_T (vnorm v) 0) as [Q|_]; [contradiction|].
    assert (Pc : sin (vnorm v / 2) / vnorm v <> 0) by (apply Rgt_not_eq, Rdiv_lt_0_compat; lra).
    pose proof (f_equal qx E) as X. pose proof (f_equal qy E) as Y. pose proof (f_equal qz E) as W. cbn [qx qy qz] in X, Y, W.
    apply Rmult_eq_reg_l in X; [|exact Pc]. apply Rmult_eq_reg_l in Y; [|exact Pc]. apply Rmult_eq_reg_l in W; [|exact Pc].
    destruct u, v. cbn in X, Y, W. congruence.
Qed.

Lemma same_rotation_trans a b c : same_rotation a b -> same_rotation b c -> same_rotation a c.
Proof. intros [ -> | -> ] [ -> | -> ]; unfold same_rotation; rewrite ?qneg_neg; auto. Qed.
Lemma same_rotation_sym a b : same_rotation a b -> same_rotation b a.
Proof. intros [ -> | -> ]; unfold same_rotation; rewrite ?qneg_neg; auto. Qed.
Lemma same_rotation_conj a b : same_rotation a b -> same_rotation (qconj a) (qconj b).
Proof. intros [ -> | -> ]; [left; reflexivity|right]. reflexivity. Qed.

Lemma vnorm_neg v : vnorm (vneg v) = vnorm v.
Proof. rewrite vneg_scale, vnorm_scale, Rabs_left by lra. lra. Qed.

Lemma log_real K q : exact_kindr K -> unit_quat q -> qw q <> 0 -> qw (qexp (k_log K q)) <> 0.
Proof. intros HK U N. destruct (proj2 HK q U) as [ -> | -> ]; [exact N|]. unfold qneg. cbn [qw]. lra. Qed.

Lemma log_unique K q v : exact_kindr K -> shortest K -> unit_quat q -> qw q <> 0 -> vnorm v <= PI -> same_rotation (qexp v) q -> k_log K q = v.
Proof.
  intros HK HS U N L H. symmetry. apply exp_unique; auto; [now apply log_real|].
  eapply same_rotation_trans; [exact H|]. apply same_rotation_sym. now apply HK.
Qed.

Lemma log_inverse K p q : exact_kindr K -> shortest K -> unit_quat p -> unit_quat q -> qw q <> 0 -> same_rotation p (qconj q) ->
  k_log K p = vneg (k_log K q).
Proof.
  intros HK HS Up U N H. apply log_unique; auto.
  - destruct H as [ -> | -> ]; unfold qconj, qneg; cbn; lra.
  - rewrite vnorm_neg. now apply HS.
  - rewrite <- qexp_conj. eapply same_rotation_trans; [|apply same_rotation_sym; exact H]. apply same_rotation_conj. now apply HK.
Qed.

(** ** Played back *)

(** A knot with its velocities turned round. *)
Definition turned_round (k : pose R * twist R) : pose R * twist R :=
  (fst k, Twist (HermiteSpec.scaled (-1) (t_lin (snd k))) (HermiteSpec.scaled (-1) (t_ang (snd k)))).

(** The knots of [c'] are those of [c] in the opposite order, at the opposite times, with the opposite velocities. *)
Definition opposite (c c' : se3_curve R) : Prop :=
  contents (h_mgr c') = map (fun tk => (- fst tk, turned_round (snd tk))) (rev (contents (h_mgr c))).

Lemma opposite_adjacent c c' u ta ka tb kb v : opposite c c' -> contents (h_mgr c) = u ++ (ta, ka) :: (tb, kb) :: v ->
  contents (h_mgr c') = map (fun tk => (- fst tk, turned_round (snd tk))) (rev v) ++ (- tb, turned_round kb) :: (- ta, turned_round ka) ::
    map (fun tk => (- fst tk, turned_round (snd tk))) (rev u).
Proof.
  intros O E. rewrite O, E, rev_app_distr. cbn [rev]. rewrite !map_app. cbn [map fst snd]. rewrite <- !app_assoc. reflexivity.
Qed.

Lemma translation_split c u ta ka tb kb v : contents (h_mgr c) = u ++ (ta, ka) :: (tb, kb) :: v ->
  contents (translation c) = map (fun tk => (fst tk, e3_knot (snd tk))) u ++ (ta, @e3_knot R ka) :: (tb, @e3_knot R kb) ::
    map (fun tk => (fst tk, e3_knot (snd tk))) v.
Proof. intros E. rewrite translation_contents, E, map_app. reflexivity. Qed.

(** ** The rotation of a segment played back *)

Lemma scaled_vneg v : HermiteSpec.scaled (-1) v = vneg v.
Proof. destruct v as [a b d]. unfold HermiteSpec.scaled, vneg. cbn. numR. f_equal; ring. Qed.

Section Segment.
Variable K : kindr R.
Hypothesis HK : exact_kindr K.
Hypothesis HS : shortest K.
Variables (ta tb : R) (a b : pose R * twist R).
Hypothesis Hlt : ta < tb.
Hypothesis Ua : unit_quat (p_rot (fst a)).
Hypothesis Ub : unit_quat (p_rot (fst b)).

(** The turn that remains between the stretches along the stored angular velocities. *)
Definition middle_turn : quat R :=
  let third := (tb - ta) / 3 in
  qmul (qmul (qmul (qexp (vneg (rotation_matrix (qconj (p_rot (fst a))) (vscale third (t_ang (snd a)))))) (qconj (p_rot (fst a)))) (p_rot (fst b)))
       (qexp (vneg (rotation_matrix (qconj (p_rot (fst b))) (vscale third (t_ang (snd b)))))).
Hypothesis Hm : qw middle_turn <> 0.

Let third := (tb - ta) / 3.
Let w1 := rotation_matrix (qconj (p_rot (fst a))) (vscale third (t_ang (snd a))).
Let w3 := rotation_matrix (qconj (p_rot (fst b))) (vscale third (t_ang (snd b))).
Let w2 := k_log K middle_turn.
Let al (t : R) := (t - ta) / (tb - ta).
Let b1 (t : R) := al t * al t * al t - 3 * (al t * al t) + 3 * al t.
Let b2 (t : R) := - 2 * (al t * al t * al t) + 3 * (al t * al t).
Let b3 (t : R) := al t * al t * al t.

Lemma middle_unit : unit_quat middle_turn.
Proof. unfold middle_turn. cbv zeta. repeat apply unit_mul; auto using qexp_unit, unit_conj. Qed.

Lemma forward t : se3_segment_rotation K ta tb a b t =
  qmul (qmul (qmul (p_rot (fst a)) (qexp (vscale (b1 t) w1))) (qexp (vscale (b2 t) w2))) (qexp (vscale (b3 t) w3)).
Proof. exact (rot_form K HK ta tb a b t). Qed.

(** The whole way takes [a] to [b]. *)
Lemma whole : same_rotation (p_rot (fst b)) (qmul (qmul (qmul (p_rot (fst a)) (qexp w1)) (qexp w2)) (qexp w3)).
Proof.
  assert (E : p_rot (fst b) = qmul (qmul (qmul (p_rot (fst a)) (qexp w1)) middle_turn) (qexp w3)).
  { unfold middle_turn. cbv zeta. fold third. fold w1 w3. rewrite !qmul_assoc. rewrite qexp_neg_l, qmul_one_r.
    rewrite <- (qmul_assoc (qexp w1)). rewrite qexp_neg_r, qmul_one_l. rewrite <- qmul_assoc, unit_conj_r, qmul_one_l by exact Ua. reflexivity. }
  rewrite E at 1. apply same_rotation_mul_r, same_rotation_mul_l, same_rotation_sym. apply HK. exact middle_unit.
Qed.

Lemma rotation_vneg q v : rotation_matrix q (vneg v) = vneg (rotation_matrix q v).
Proof. now rewrite !vneg_scale, rotation_scale. Qed.
Lemma vscale_vneg s (v : vec3 R) : vscale s (vneg v) = vneg (vscale s v).
Proof. rewrite !vneg_scale, !vscale_vscale. f_equal. ring. Qed.
Lemma vneg_vneg (v : vec3 R) : vneg (vneg v) = v.
Proof. rewrite !vneg_scale, vscale_vscale. replace (-1 * -1) with 1 by ring. apply vscale_1. Qed.

Lemma backward t : same_rotation (se3_segment_rotation K (- tb) (- ta) (turned_round b) (turned_round a) (- t))
  (qmul (qmul (qmul (qmul (qmul (p_rot (fst a)) (qexp w1)) (qexp w2)) (qexp (vscale (b3 t) w3))) (qexp (vscale (b2 t - 1) w2)))
        (qexp (vscale (b1 t - 1) w1))).
Proof.
  assert (L' : - tb < - ta) by lra.
  pose proof (rot_form K HK (- tb) (- ta) (turned_round b) (turned_round a) (- t)) as F. cbv zeta in F. rewrite F. clear F.
  cbn [qA wA turned_round fst snd t_ang p_rot].
  unfold qA, wA. cbn [turned_round fst snd t_ang]. rewrite !scaled_vneg, !vscale_vneg, !rotation_vneg.
  replace ((- ta - - tb) / 3) with third by (unfold third; field). fold w1 w3.
  replace ((- t - - tb) / (- ta - - tb)) with (1 - al t) by (unfold al; field; lra).
  set (m := qmul (qmul (qmul (qexp (vneg (vneg w3))) (qconj (p_rot (fst b)))) (p_rot (fst a))) (qexp (vneg (vneg w1)))).
  assert (Em : m = qconj middle_turn).
  { unfold m, middle_turn. cbv zeta. fold third. fold w1 w3. rewrite !qconj_mul, !qconj_conj, !qexp_conj, !vneg_vneg, !qmul_assoc. reflexivity. }
  assert (El : k_log K m = vneg w2).
  { unfold w2. rewrite Em. apply log_inverse; auto using middle_unit, unit_conj. now left. }
  rewrite El, !vneg_scale, !vscale_vscale.
  set (r := qexp _). set (s := qexp _). set (u := qexp _).
  eapply same_rotation_trans; [apply same_rotation_mul_r, same_rotation_mul_r, same_rotation_mul_r, whole|]. left.
  unfold r, s, u. rewrite (qmul_assoc (qmul (qmul (p_rot (fst a)) (qexp w1)) (qexp w2)) (qexp w3)).
  replace (qexp w3) with (qexp (vscale 1 w3)) by now rewrite vscale_1. rewrite qexp_add.
  f_equal; [f_equal; [f_equal|]|]; f_equal; f_equal; unfold b1, b2, b3; ring.
Qed.

(** Equal, if everything turns about one axis. *)
Lemma one_axis_backward t n c1 c2 c3 : w1 = vscale c1 n -> w2 = vscale c2 n -> w3 = vscale c3 n ->
  same_rotation (se3_segment_rotation K (- tb) (- ta) (turned_round b) (turned_round a) (- t)) (se3_segment_rotation K ta tb a b t).
Proof.
  intros E1 E2 E3. eapply same_rotation_trans; [apply backward|]. left. rewrite forward, E1, E2, E3, !vscale_vscale, !qmul_assoc, !qexp_add.
  do 3 f_equal. ring.
Qed.
End Segment.

Lemma exp_parallel u n d : vnorm u <= PI -> same_rotation (qexp u) (qexp (vscale d n)) -> exists c, u = vscale c n.
Proof.
  intros L H. pose proof (vnorm_pos u) as P. pose proof PI_RGT_0 as PP.
  destruct (Req_dec (vnorm u) 0) as [Z|Z].
  { exists 0. rewrite vscale_0. now apply vnorm_zero. }
  assert (Ps : 0 < sin (vnorm u / 2)) by (apply sin_gt_0; lra).
  assert (Pc : sin (vnorm u / 2) / vnorm u <> 0) by (apply Rgt_not_eq, Rdiv_lt_0_compat; lra).
  set (r := sin (vnorm u / 2) / vnorm u) in *.
  set (s := if Req_EM_T (vnorm (vscale d n)) 0 then / 2 else sin (vnorm (vscale d n) / 2) / vnorm (vscale d n)).
  assert (Eu : qexp u = Quat (cos (vnorm u / 2)) (r * HermiteE3.vx u) (r * vy u) (r * vz u)).
  { unfold qexp. cbv zeta. destruct (Req_EM_T (vnorm u) 0); [contradiction|reflexivity]. }
  assert (En : qexp (vscale d n) = Quat (cos (vnorm (vscale d n) / 2)) (s * (d * HermiteE3.vx n)) (s * (d * vy n)) (s * (d * vz n))) by reflexivity.
  rewrite Eu, En in H.
  assert (X : forall f x y, f <> 0 -> f * x = y -> x = / f * y) by (intros f x y Hf <-; field; exact Hf).
  destruct H as [H|H].
  - exists (/ r * (s * d)). pose proof (f_equal qx H) as A. pose proof (f_equal qy H) as B. pose proof (f_equal qz H) as C. cbn in A, B, C.
    apply (X _ _ _ Pc) in A. apply (X _ _ _ Pc) in B. apply (X _ _ _ Pc) in C. destruct u, n. unfold vscale. cbn in *. numR. rewrite A, B, C. f_equal; ring.
  - exists (- / r * (s * d)). pose proof (f_equal qx H) as A. pose proof (f_equal qy H) as B. pose proof (f_equal qz H) as C. cbn in A, B, C.
    apply (X _ _ _ Pc) in A. apply (X _ _ _ Pc) in B. apply (X _ _ _ Pc) in C. destruct u, n. unfold vscale. cbn in *. numR. rewrite A, B, C. f_equal; ring.
Qed.

(** Two knots turn about one axis [n]: the stored angular velocities are along it and the turn from one to the other is about it. *)
Definition one_axis (ka kb : pose R * twist R) : Prop :=
  exists n x y z, t_ang (snd ka) = vscale x n /\ t_ang (snd kb) = vscale y n /\
    same_rotation (p_rot (fst kb)) (qmul (qexp (vscale z n)) (p_rot (fst ka))).

Lemma one_axis_local K ta tb a b : exact_kindr K -> shortest K -> unit_quat (p_rot (fst a)) -> unit_quat (p_rot (fst b)) -> one_axis a b ->
  exists n c1 c2 c3,
    rotation_matrix (qconj (p_rot (fst a))) (vscale ((tb - ta) / 3) (t_ang (snd a))) = vscale c1 n /\
    k_log K (middle_turn ta tb a b) = vscale c2 n /\
    rotation_matrix (qconj (p_rot (fst b))) (vscale ((tb - ta) / 3) (t_ang (snd b))) = vscale c3 n.
Proof.
  intros HK HS Ua Ub (n & x & y & z & Ea & Eb & Eq).
  set (h := (tb - ta) / 3). set (m := rotation_matrix (qconj (p_rot (fst a))) n).
  assert (E1 : rotation_matrix (qconj (p_rot (fst a))) (vscale h (t_ang (snd a))) = vscale (h * x) m)
    by (rewrite Ea, vscale_vscale, rotation_scale; reflexivity).
  assert (E3 : rotation_matrix (qconj (p_rot (fst b))) (vscale h (t_ang (snd b))) = vscale (h * y) m).
  { rewrite Eb, vscale_vscale, rotation_scale. f_equal. unfold m.
    rewrite (same_rotation_matrix _ _ _ (same_rotation_conj _ _ Eq)), qconj_mul, rotation_mul. f_equal.
    rewrite qexp_conj, vneg_scale, vscale_vscale. apply qexp_fixes. }
  assert (E2 : exists c2, k_log K (middle_turn ta tb a b) = vscale c2 m).
  { apply exp_parallel with (d := - (h * x) + z - h * y); [apply HS; now apply middle_unit|].
    eapply same_rotation_trans; [apply HK; now apply middle_unit|]. unfold middle_turn. cbv zeta. fold h. rewrite E1, E3.
    eapply same_rotation_trans; [apply same_rotation_mul_r, same_rotation_mul_l; exact Eq|]. left.
    rewrite !vneg_scale, !vscale_vscale, !qmul_assoc. rewrite <- (qmul_assoc (qconj (p_rot (fst a)))), <- (qmul_assoc (qmul _ _) (p_rot (fst a))).
    assert (C : qmul (qmul (qconj (p_rot (fst a))) (qexp (vscale z n))) (p_rot (fst a)) = qexp (vscale z m)).
    { unfold m. rewrite <- rotation_scale, <- qexp_rotate by now apply unit_conj. now rewrite qconj_conj. }
    rewrite C, !qexp_add. do 2 f_equal. ring. }
  destruct E2 as [c2 E2]. exists m, (h * x), c2, (h * y). auto.
Qed.

(** ** C110 *)

(** Positions and linear velocities are those of the curve played back. *)
Theorem C110_positions : forall K (c c' : se3_curve R) t,
  consistent (h_mgr c) -> consistent (h_mgr c') -> opposite c c' -> (2 <= se3_size c)%nat -> se3_min_time c <= t <= se3_max_time c ->
  exists p p' w w', se3_evaluate K c t = Ok (Some p) /\ se3_evaluate K c' (- t) = Ok (Some p') /\
    se3_evaluate_derivative K c t 1 = Ok (Some w) /\ se3_evaluate_derivative K c' (- t) 1 = Ok (Some w') /\
    p_pos p' = p_pos p /\ t_lin w' = HermiteSpec.scaled (-1) (t_lin w).
Proof.
  intros K c c' t Hc Hc' O H2 Hr.
  destruct (find_segment (h_mgr c) t Hc H2 Hr) as (u & ta & ka & tb & kb & v & E & Ht0 & Ht1).
  assert (Ht : ta <= t <= tb) by (destruct Ht1 as [?|[-> _]]; lra). pose proof (consistent_incr _ _ _ _ _ _ _ Hc E) as L.
  pose proof (opposite_adjacent c c' u ta ka tb kb v O E) as E'.
  pose proof (translation_split _ _ _ _ _ _ _ E) as T. pose proof (translation_split _ _ _ _ _ _ _ E') as T'.
  pose proof (evaluate_segment (translation c) _ _ _ _ _ _ t (map_consistent _ _ Hc) T Ht) as P.
  pose proof (velocity_segment (translation c) _ _ _ _ _ _ t (map_consistent _ _ Hc) T Ht) as V.
  pose proof (evaluate_segment (translation c') _ _ _ _ _ _ (- t) (map_consistent _ _ Hc') T' ltac:(lra)) as P'.
  pose proof (velocity_segment (translation c') _ _ _ _ _ _ (- t) (map_consistent _ _ Hc') T' ltac:(lra)) as V'.
  rewrite (translation_evaluate K) in P, P'. rewrite (translation_velocity K) in V, V'.
  destruct (se3_evaluate K c t) as [[p|]| | |]; try discriminate. destruct (se3_evaluate K c' (- t)) as [[p'|]| | |]; try discriminate.
  destruct (se3_evaluate_derivative K c t 1) as [[w|]| | |]; try discriminate.
  destruct (se3_evaluate_derivative K c' (- t) 1) as [[w'|]| | |]; try discriminate.
  cbn [on_value] in P, P', V, V'. exists p, p', w, w'. do 4 (split; [reflexivity|]). split.
  - assert (p_pos p = e3_segment_value ta tb (e3_knot ka) (e3_knot kb) t) as -> by congruence.
    assert (p_pos p' = e3_segment_value (- tb) (- ta) (e3_knot (turned_round kb)) (e3_knot (turned_round ka)) (- t)) as -> by congruence.
    apply vec3_ext. intros x. rewrite !coord_value. unfold e3_knot, turned_round. cbn [k_pos k_vel fst snd t_lin].
    rewrite !coord_scaled. now apply hval_reverse.
  - assert (t_lin w = e3_segment_velocity ta tb (e3_knot ka) (e3_knot kb) t) as -> by congruence.
    assert (t_lin w' = e3_segment_velocity (- tb) (- ta) (e3_knot (turned_round kb)) (e3_knot (turned_round ka)) (- t)) as -> by congruence.
    apply vec3_ext. intros x. rewrite coord_scaled, !coord_velocity. unfold e3_knot, turned_round. cbn [k_pos k_vel fst snd t_lin].
    rewrite !coord_scaled. now apply hvel_reverse.
Qed.

Lemma piece_unit K (c : se3_curve R) (HK : exact_kindr K) (Hc : consistent (h_mgr c)) (Hu : unit_knots c) u ta ka tb kb v t :
  contents (h_mgr c) = u ++ (ta, ka) :: (tb, kb) :: v -> ta <= t <= tb -> unit_quat (rot_at K c t).
Proof.
  intros E Ht. destruct (rot_piece K c HK Hc Hu u ta ka tb kb v t E Ht) as (_ & _ & R1 & R2 & _).
  assert (Ua : unit_quat (p_rot (fst ka))) by (apply (Hu ta ka); rewrite E, in_app_iff; simpl; auto).
  assert (Ub : unit_quat (p_rot (fst kb))) by (apply (Hu tb kb); rewrite E, in_app_iff; simpl; auto).
  destruct v as [|x v]; [rewrite R1 by auto; now apply rot_unit|].
  destruct (Req_dec t tb) as [ -> |N].
  - rewrite R2 by (split; [reflexivity|discriminate]). exact Ub.
  - rewrite R1 by (left; lra). now apply rot_unit.
Qed.

(** Orientations are, where the curve turns about one axis and the turn that remains between the stored velocities is not half a turn. *)
Theorem C110_one_axis : forall K (c c' : se3_curve R) ta ka tb kb t,
  exact_kindr K -> shortest K -> consistent (h_mgr c) -> consistent (h_mgr c') -> unit_knots c -> opposite c c' ->
  adjacent (contents (h_mgr c)) (ta, ka) (tb, kb) -> one_axis ka kb -> qw (middle_turn ta tb ka kb) <> 0 -> ta <= t <= tb ->
  same_rotation (rot_at K c' (- t)) (rot_at K c t).
Proof.
  intros K c c' ta ka tb kb t HK HS Hc Hc' Hu O (u & v & E) A Hm Ht. pose proof (consistent_incr _ _ _ _ _ _ _ Hc E) as L.
  pose proof (opposite_adjacent c c' u ta ka tb kb v O E) as E'.
  assert (Hu' : unit_knots c').
  { intros s k Hk. rewrite O in Hk. apply in_map_iff in Hk as ([s' k'] & Q & Hk). apply in_rev in Hk.
    assert (k = turned_round k') as -> by (cbn in Q; congruence). exact (Hu _ _ Hk). }
  assert (Ua : unit_quat (p_rot (fst ka))) by (apply (Hu ta ka); rewrite E, in_app_iff; simpl; auto).
  assert (Ub : unit_quat (p_rot (fst kb))) by (apply (Hu tb kb); rewrite E, in_app_iff; simpl; auto).
  destruct (one_axis_local K ta tb ka kb HK HS Ua Ub A) as (n & c1 & c2 & c3 & E1 & E2 & E3).
  pose proof (one_axis_backward K HK HS ta tb ka kb L Ua Ub Hm t n c1 c2 c3 E1 E2 E3) as B.
  apply rotation_same.
  - apply (piece_unit K c' HK Hc' Hu' _ _ _ _ _ _ (- t) E'). lra.
  - apply (piece_unit K c HK Hc Hu _ _ _ _ _ _ t E). lra.
  - intros x. rewrite (rot_matrix_piece K c' HK Hc' Hu' _ _ _ _ _ _ (- t) x E') by lra. rewrite (rot_matrix_piece K c HK Hc Hu _ _ _ _ _ _ t x E Ht).
    now apply same_rotation_matrix.
Qed.

Definition against (d : twist R) : twist R := Twist (HermiteSpec.scaled (-1) (t_lin d)) (HermiteSpec.scaled (-1) (t_ang d)).

(** No two points that are two apart are half a turn apart. *)
Definition no_half_turns (vs : list (pose R)) : Prop :=
  forall i a b, nth_error vs i = Some a -> nth_error vs (S (S i)) = Some b ->
    qw (p_rot a) * qw (p_rot b) + qx (p_rot a) * qx (p_rot b) + qy (p_rot a) * qy (p_rot b) + qz (p_rot a) * qz (p_rot b) <> 0.

Lemma slope_against K ta tb a b : exact_kindr K -> shortest K -> unit_quat (p_rot a) -> unit_quat (p_rot b) -> ta < tb ->
  qw (p_rot a) * qw (p_rot b) + qx (p_rot a) * qx (p_rot b) + qy (p_rot a) * qy (p_rot b) + qz (p_rot a) * qz (p_rot b) <> 0 ->
  se3_slope K (- tb) (- ta) b a = against (se3_slope K ta tb a b).
Proof.
  intros HK HS Ua Ub L N. unfold se3_slope, against. cbv zeta. cbn [t_lin t_ang]. f_equal.
  - destruct a as [[a1 a2 a3] qa], b as [[b1 b2 b3] qb]. apply vec3_ext. intros []; cbn; numR; field; lra.
  - unfold box_minus. rewrite (log_inverse K (qmul (p_rot a) (qconj (p_rot b))) (qmul (p_rot b) (qconj (p_rot a)))).
    + generalize (k_log K (qmul (p_rot b) (qconj (p_rot a)))). intros [x y z]. apply vec3_ext. intros []; cbn; numR; field; lra.
    + exact HK.
    + exact HS.
    + auto using unit_mul, unit_conj.
    + auto using unit_mul, unit_conj.
    + intros Z. apply N. rewrite <- Z. destruct (p_rot a), (p_rot b). cbn. numR. ring.
    + left. now rewrite qconj_mul, qconj_conj.
Qed.

Lemma nth_error_rev {A} (l : list A) i : (i < length l)%nat -> nth_error (rev l) i = nth_error l (length l - 1 - i).
Proof.
  intros L. destruct l as [|d l0] eqn:El; [cbn in L; lia|]. rewrite <- El in *.
  rewrite (nth_error_nth' (rev l) d) by (rewrite rev_length; lia). rewrite (nth_error_nth' l d) by lia.
  rewrite rev_nth by lia. do 2 f_equal. lia.
Qed.

Lemma nth_error_same {A} : forall l l' : list A, length l = length l' -> (forall i, (i < length l)%nat -> nth_error l i = nth_error l' i) -> l = l'.
Proof.
  induction l as [|x l IH]; intros [|x' l'] L H; try discriminate; [reflexivity|]. f_equal.
  - specialize (H 0%nat ltac:(cbn; lia)). cbn in H. congruence.
  - apply IH; [cbn in L; lia|]. intros i Li. apply (H (S i)). cbn. lia.
Qed.

(** A fit of the reversed data gives the opposite curve. *)
Theorem C110_fit : forall K g g' (c c' : se3_curve R) ts vs d0 d1 out out',
  exact_kindr K -> shortest K -> length ts = length vs -> (2 <= length ts)%nat -> increasing_times ts ->
  (g + N.of_nat (length ts) < 2 ^ 64)%N -> (g' + N.of_nat (length ts) < 2 ^ 64)%N ->
  (forall v, In v vs -> unit_quat (p_rot v)) -> no_half_turns vs ->
  exists r r', se3_fit_with_derivatives K g c ts vs d0 d1 out = Ok r /\
    se3_fit_with_derivatives K g' c' (map Ropp (rev ts)) (rev vs) (against d1) (against d0) out' = Ok r' /\
    let x := snd (fst r) in let x' := snd (fst r') in
    consistent (h_mgr x) /\ consistent (h_mgr x') /\ unit_knots x /\ se3_size x = length ts /\ opposite x x'.
Proof.
  intros K g g' c c' ts vs d0 d1 out out' HK HS Hl H2 Hi Hg Hg' Hu Hn.
  assert (Ln : length (map Ropp (rev ts)) = length ts) by now rewrite map_length, rev_length.
  assert (Lv : length (map Ropp (rev ts)) = length (rev vs)) by (rewrite rev_length; lia).
  destruct (se3_fit_all K g c ts vs d0 d1 out Hl Hi Hg) as (x & ks & E & Hx & _ & Hcon & _ & _).
  destruct (se3_fit_all K g' c' (map Ropp (rev ts)) (rev vs) (against d1) (against d0) out' Lv (increasing_reversed ts Hi) ltac:(rewrite Ln; exact Hg'))
    as (x' & ks' & E' & Hx' & _ & Hcon' & _ & _).
  do 2 eexists. split; [exact E|]. split; [exact E'|]. cbn [fst snd]. split; [exact Hx|]. split; [exact Hx'|].
  split; [exact (fit_unit_knots K g c ts vs d0 d1 out _ _ _ Hl Hi Hg Hu E)|].
  assert (Lc : forall u w e0 e1, length u = length w -> length (combine u (fit_coefficients (se3_slope K) e0 e1 None (combine u w))) = length u).
  { intros u w e0 e1 H. rewrite combine_length, fit_coefficients_length, combine_length. lia. }
  split.
  { unfold se3_size, size. rewrite <- (Lc ts vs d0 d1 Hl), <- Hcon. unfold contents. now rewrite map_length. }
  unfold opposite. rewrite Hcon, Hcon'. apply nth_error_same; [rewrite map_length, rev_length, !Lc; auto|].
  rewrite Lc by exact Lv. rewrite Ln. intros i Li. set (n := length ts) in *.
  assert (Q : forall j, (j < n)%nat -> exists s v, nth_error ts j = Some s /\ nth_error vs j = Some v /\ at_knot ts j = s /\ unit_quat (p_rot v)).
  { intros j Lj. destruct (nth_error ts j) as [s|] eqn:Es; [|apply nth_error_None in Es; unfold n in Lj; lia].
    destruct (nth_error vs j) as [v|] eqn:Ev; [|apply nth_error_None in Ev; unfold n in *; lia]. exists s, v. repeat split; auto; [now apply at_knot_nth|].
    apply Hu. now apply nth_error_In in Ev. }
  assert (T' : forall j, (j < n)%nat -> nth_error (map Ropp (rev ts)) j = option_map Ropp (nth_error ts (n - 1 - j))).
  { intros j Lj. rewrite nth_error_map, nth_error_rev by exact Lj. reflexivity. }
  assert (V' : forall j, (j < n)%nat -> nth_error (rev vs) j = nth_error vs (n - 1 - j)).
  { intros j Lj. rewrite nth_error_rev by lia. f_equal. lia. }
  destruct (Q (n - 1 - i)%nat ltac:(lia)) as (s & v & Es & Ev & As & Uv).
  rewrite (se3_fitted_nth K (map Ropp (rev ts)) (rev vs) _ _ i (- s) v Lv) by (rewrite ?T', ?V', ?Es, ?Ev by exact Li; reflexivity).
  rewrite nth_error_map, nth_error_rev by (rewrite Lc; auto). rewrite Lc by exact Hl. fold n.
  rewrite (se3_fitted_nth K ts vs d0 d1 (n - 1 - i) s v Hl Es Ev). cbn [option_map fst snd]. unfold turned_round. cbn [fst snd]. do 3 f_equal.
  change (se3_knot_twist K (map Ropp (rev ts)) (rev vs) (against d1) (against d0) i = against (se3_knot_twist K ts vs d0 d1 (n - 1 - i))).
  destruct i as [|i].
  - cbn [se3_knot_twist]. replace (n - 1 - 0)%nat with (S (n - 2)) by lia. unfold se3_knot_twist.
    assert (nth_error ts (S (S (n - 2))) = None) as -> by (apply nth_error_None; unfold n in *; lia).
    destruct (nth_error ts (n - 2)); [|reflexivity]. now destruct (nth_error vs (n - 2)).
  - destruct (Nat.eq_dec (S (S i)) n) as [Z|Z].
    + replace (n - 1 - S i)%nat with 0%nat by lia. cbn [se3_knot_twist].
      assert (nth_error (map Ropp (rev ts)) (S (S i)) = None) as -> by (apply nth_error_None; rewrite Ln; lia).
      destruct (nth_error (map Ropp (rev ts)) i); [|reflexivity]. now destruct (nth_error (rev vs) i).
    + cbn [se3_knot_twist]. rewrite !T', !V' by lia.
      remember (n - 3 - i)%nat as j eqn:Ej. replace (n - 1 - S i)%nat with (S j) by lia. replace (n - 1 - i)%nat with (S (S j)) by lia.
      replace (n - 1 - S (S i))%nat with j by lia. cbn [se3_knot_twist].
      destruct (Q j ltac:(lia)) as (s0 & v0 & Es0 & Ev0 & As0 & U0). destruct (Q (S (S j)) ltac:(lia)) as (s2 & v2 & Es2 & Ev2 & As2 & U2).
      rewrite Es0, Ev0, Es2, Ev2. cbn [option_map].
      apply slope_against; auto; [|exact (Hn j v0 v2 Ev0 Ev2)].
      pose proof (Hi j ltac:(unfold n in *; lia)). pose proof (Hi (S j) ltac:(unfold n in *; lia)). lra.
Qed.

(** ** Not about one axis *)

Lemma quarter_x : exists s, s * s * 2 = 1 /\ 0 < s /\ qexp (V3 (PI / 2) 0 0) = Quat s s 0 0.
Proof.
  pose proof PI_RGT_0 as PP. exists (cos (PI / 4)). assert (N : vnorm (V3 (PI / 2) 0 0) = PI / 2).
  { unfold vnorm. cbn [HermiteE3.vx vy vz]. replace (_ + _ + _) with (PI / 2 * (PI / 2)) by ring. apply sqrt_square. lra. }
  pose proof (sin2_cos2 (PI / 4)) as T. unfold Rsqr in T. rewrite sin_PI4, <- cos_PI4 in T.
  assert (P : 0 < cos (PI / 4)) by (apply cos_gt_0; lra). split; [lra|]. split; [exact P|].
  unfold qexp. cbv zeta. rewrite N. destruct (Req_EM_T (PI / 2) 0) as [Z|Z]; [lra|]. cbn [HermiteE3.vx vy vz].
  replace (PI / 2 / 2) with (PI / 4) by field. rewrite sin_PI4, <- cos_PI4. f_equal; field; lra.
Qed.

Lemma axis_exp_x a : 0 < a -> qexp (V3 a 0 0) = Quat (cos (a / 2)) (sin (a / 2)) 0 0.
Proof.
  intros A. assert (N : vnorm (V3 a 0 0) = a).
  { unfold vnorm. cbn [HermiteE3.vx vy vz]. replace (_ + _ + _) with (a * a) by ring. apply sqrt_square. lra. }
  unfold qexp. cbv zeta. rewrite N. destruct (Req_EM_T a 0); [lra|]. cbn [HermiteE3.vx vy vz]. f_equal; field; lra.
Qed.
Lemma axis_exp_y a : 0 < a -> qexp (V3 0 a 0) = Quat (cos (a / 2)) 0 (sin (a / 2)) 0.
Proof.
  intros A. assert (N : vnorm (V3 0 a 0) = a).
  { unfold vnorm. cbn [HermiteE3.vx vy vz]. replace (_ + _ + _) with (a * a) by ring. apply sqrt_square. lra. }
  unfold qexp. cbv zeta. rewrite N. destruct (Req_EM_T a 0); [lra|]. cbn [HermiteE3.vx vy vz]. f_equal; field; lra.
Qed.

(** From rest in the orientation one to an orientation reached by a quarter turn about x followed by the turn about y of the last
    stretch, at an angular velocity as small as one likes: half way the curve through the reversed data is elsewhere. *)
Theorem C110_orientations_refuted : forall K th, exact_kindr K -> shortest K -> 0 < th < 2 * PI ->
  let q := qmul (qexp (V3 (PI / 2) 0 0)) (qexp (V3 0 (8 * th) 0)) in
  let ts := [0; 3] in let vs := [Pose vzero qone; Pose vzero q] in
  let d0 := zero_twist in let d1 := Twist vzero (V3 0 0 (8 * th)) in
  exists r r', se3_fit_with_derivatives K 0 se3_new ts vs d0 d1 [] = Ok r /\
    se3_fit_with_derivatives K 0 se3_new (map Ropp (rev ts)) (rev vs) (against d1) (against d0) [] = Ok r' /\
    ~ same_rotation (rot_at K (snd (fst r')) (- (3 / 2))) (rot_at K (snd (fst r)) (3 / 2)).
Proof.
  intros K th HK HS Hth q ts vs d0 d1. pose proof PI_RGT_0 as PP.
  assert (Uq : unit_quat q) by (apply unit_mul; apply qexp_unit).
  assert (Hi : increasing_times ts) by (intros [|i] Li; unfold at_knot, ts in *; cbn in *; [lra|lia]).
  assert (Hu : forall v, In v vs -> unit_quat (p_rot v)) by (intros v [<-|[<-|[]]]; [apply unit_one|exact Uq]).
  assert (Hn : no_half_turns vs) by (intros i a b _ E; cbn in E; destruct i; discriminate).
  destruct (C110_fit K 0 0 se3_new se3_new ts vs d0 d1 [] [] HK HS eq_refl ltac:(cbn; lia) Hi eq_refl eq_refl Hu Hn) as (r & r' & E & E' & H).
  destruct (se3_fit_all K 0 se3_new ts vs d0 d1 [] eq_refl Hi eq_refl) as (x & ks & E2 & _ & _ & Hcon & _).
  assert (Ex : snd (fst r) = x) by (rewrite E2 in E; assert (r = ((0 + N.of_nat (length ts))%N, x, [] ++ ks)) as -> by congruence; reflexivity).
  cbv zeta in H. rewrite Ex in *. destruct H as (Hx & Hx' & Hk & _ & O). exists r, r'. split; [exact E|]. split; [exact E'|]. rewrite Ex.
  set (x' := snd (fst r')) in *.
  set (a := (Pose vzero qone, d0) : pose R * twist R). set (b := (Pose vzero q, d1)).
  assert (Ec : contents (h_mgr x) = [] ++ (0, a) :: (3, b) :: []) by (rewrite Hcon; reflexivity).
  pose proof (opposite_adjacent x x' [] 0 a 3 b [] O Ec) as Ec'. cbn [rev map app] in Ec'.
  assert (Hk' : unit_knots x').
  { intros s k In1. rewrite Ec' in In1. cbn in In1. destruct In1 as [X|[X|[]]]; assert (k = _) by (symmetry; exact (f_equal snd X)); subst k; [exact Uq|apply unit_one]. }
  destruct (rot_piece K x HK Hx Hk [] 0 a 3 b [] (3 / 2) Ec ltac:(lra)) as (_ & _ & R1 & _). rewrite R1 by auto.
  destruct (rot_piece K x' HK Hx' Hk' [] (- (3)) (turned_round b) (- 0) (turned_round a) [] (- (3 / 2)) Ec' ltac:(lra)) as (_ & _ & R1' & _).
  rewrite R1' by auto.
  destruct quarter_x as (s & Ss & Ps & Es).
  assert (W1 : rotation_matrix (qconj (p_rot (fst a))) (vscale ((3 - 0) / 3) (t_ang (snd a))) = V3 0 0 0)
    by (unfold a, d0; apply vec3_ext; intros []; cbn; numR; field).
  assert (W3 : rotation_matrix (qconj (p_rot (fst b))) (vscale ((3 - 0) / 3) (t_ang (snd b))) = V3 0 (8 * th) 0).
  { cbn [fst snd b p_rot d1 t_ang]. replace ((3 - 0) / 3) with 1 by field. rewrite vscale_1.
    replace (V3 0 0 (8 * th)) with (rotation_matrix q (V3 0 (8 * th) 0)); [now apply rotation_inv'|].
    unfold q. rewrite rotation_mul. rewrite <- (vscale_1 (V3 0 (8 * th) 0)) at 1. rewrite qexp_fixes, Es.
    unfold rotation_matrix. cbn [qw qx qy qz HermiteE3.vx vy vz]. f_equal; [ring|ring|]. transitivity (s * s * 2 * (8 * th)); [ring|rewrite Ss; ring]. }
  assert (M : middle_turn 0 3 a b = qexp (V3 (PI / 2) 0 0)).
  { unfold middle_turn. cbv zeta. rewrite W1, W3. cbn [fst a b p_rot]. replace (vneg (V3 0 0 0)) with (V3 0 0 0) by (unfold vneg; cbn; numR; f_equal; ring).
    rewrite qexp_zero. replace (qconj qone) with (@qone R _) by (unfold qconj, qone; cbn; numR; f_equal; ring). rewrite !qmul_one_l.
    unfold q. rewrite qmul_assoc, qexp_neg_r, qmul_one_r. reflexivity. }
  assert (Mw : qw (middle_turn 0 3 a b) <> 0) by (rewrite M, Es; cbn [qw]; lra).
  assert (W2 : k_log K (middle_turn 0 3 a b) = V3 (PI / 2) 0 0).
  { apply log_unique; auto; [rewrite M; apply qexp_unit| |left; now rewrite M].
    unfold vnorm. cbn [HermiteE3.vx vy vz]. replace (_ + _ + _) with (PI / 2 * (PI / 2)) by ring. rewrite sqrt_square; lra. }
  intros S. pose proof (backward K HK HS 0 3 a b ltac:(lra) unit_one Uq Mw (3 / 2)) as B.
  assert (Z : same_rotation (se3_segment_rotation K (- (3)) (- 0) (turned_round b) (turned_round a) (- (3 / 2))) (se3_segment_rotation K 0 3 a b (3 / 2))) by exact S.
  apply (same_rotation_trans _ _ _ (same_rotation_sym _ _ B)) in Z. rewrite (forward K HK 0 3 a b) in Z.
  cbv zeta in Z. rewrite W1, W2, W3 in Z. clear S B.
  cbn [fst a p_rot] in Z.
  assert (V0 : forall m, vscale m (V3 0 0 0) = V3 0 0 0) by (intros m; apply vec3_ext; intros []; cbn; numR; ring).
  rewrite !V0, qexp_zero, !qmul_one_r, !qmul_one_l in Z.
  set (h := qexp (V3 (PI / 4) 0 0)) in *. set (e := qexp (V3 0 th 0)) in *.
  assert (Uh : unit_quat h) by apply qexp_unit.
  replace (qexp (V3 (PI / 2) 0 0)) with (qmul h h) in Z.
  2:{ unfold h. rewrite <- (vscale_1 (V3 (PI / 4) 0 0)), qexp_add. f_equal. apply vec3_ext. intros []; cbn; numR; field. }
  replace (vscale ((3 / 2 - 0) / (3 - 0) * ((3 / 2 - 0) / (3 - 0)) * ((3 / 2 - 0) / (3 - 0))) (V3 0 (8 * th) 0)) with (V3 0 th 0) in Z
    by (apply vec3_ext; intros []; cbn; numR; field).
  fold e in Z.
  match type of Z with context [qexp (vscale ?m (V3 (PI / 2) 0 0))] => replace (vscale m (V3 (PI / 2) 0 0)) with (vneg (V3 (PI / 4) 0 0)) in Z
    by (apply vec3_ext; intros []; cbn; numR; field) end.
  match type of Z with context [qexp (vscale ?m (V3 (PI / 2) 0 0))] => replace (vscale m (V3 (PI / 2) 0 0)) with (V3 (PI / 4) 0 0) in Z
    by (apply vec3_ext; intros []; cbn; numR; field) end.
  fold h in Z. rewrite <- qexp_conj in Z. fold h in Z.
  apply (same_rotation_mul_l (qconj h)) in Z. apply (same_rotation_mul_r h) in Z.
  rewrite !qmul_assoc in Z. rewrite <- !(qmul_assoc (qconj h) h), (unit_conj_l h Uh), !qmul_one_l, qmul_one_r in Z.
  unfold h, e in Z. rewrite axis_exp_x, axis_exp_y in Z by lra.
  assert (C8 : 0 < cos (PI / 4 / 2)) by (apply cos_gt_0; lra). assert (S8 : 0 < sin (PI / 4 / 2)) by (apply sin_gt_0; lra).
  assert (St : 0 < sin (th / 2)) by (apply sin_gt_0; lra).
  assert (P1 : 0 < sin (PI / 4 / 2) * sin (th / 2)) by (apply Rmult_lt_0_compat; lra).
  assert (P2 : 0 < cos (PI / 4 / 2) * sin (th / 2)) by (apply Rmult_lt_0_compat; lra).
  destruct Z as [Z|Z]; pose proof (f_equal qy Z) as Y; pose proof (f_equal qz Z) as X; revert X Y; cbn; numR; intros X Y; lra.
Qed.

(** ** Instances of the hypotheses *)

Lemma two_knots_opposite : exists x x' : se3_curve R, exact_kindr std_kindr /\ shortest std_kindr /\ consistent (h_mgr x) /\ consistent (h_mgr x') /\
  unit_knots x /\ se3_size x = 2%nat /\ opposite x x' /\
  exists ka kb, contents (h_mgr x) = [(0, ka); (3, kb)] /\ one_axis ka kb /\ qw (middle_turn 0 3 ka kb) <> 0.
Proof.
  set (ts := [0; 3]). set (q := qexp (V3 (PI / 2) 0 0)). set (vs := [Pose vzero qone; Pose vzero q] : list (pose R)). set (w := Twist vzero (V3 1 0 0) : twist R).
  assert (Uq : unit_quat q) by apply qexp_unit.
  assert (Hi : increasing_times ts) by (intros [|i] Li; unfold at_knot, ts in *; cbn in *; [lra|lia]).
  assert (Hu : forall v, In v vs -> unit_quat (p_rot v)) by (intros v [<-|[<-|[]]]; [apply unit_one|exact Uq]).
  assert (Hn : no_half_turns vs) by (intros i a b _ E; cbn in E; destruct i; discriminate).
  destruct (C110_fit std_kindr 0 0 se3_new se3_new ts vs w (against w) [] [] std_log_exact std_shortest eq_refl ltac:(cbn; lia) Hi eq_refl eq_refl Hu Hn)
    as (r & r' & E & E' & Hx & Hx' & Hk & Sz & O).
  destruct (se3_fit_all std_kindr 0 se3_new ts vs w (against w) [] eq_refl Hi eq_refl) as (x & ks & E2 & _ & _ & Hcon & _).
  assert (Ex : snd (fst r) = x) by (rewrite E2 in E; assert (r = ((0 + N.of_nat (length ts))%N, x, [] ++ ks)) as -> by congruence; reflexivity).
  rewrite Ex in *. exists x, (snd (fst r')). split; [exact std_log_exact|]. split; [exact std_shortest|]. do 4 (split; [assumption|]). split; [exact O|].
  exists (Pose vzero qone, w), (Pose vzero q, against w). split; [rewrite Hcon; reflexivity|]. split.
  - exists (V3 (PI / 2) 0 0), (2 / PI), (- (2 / PI)), 1. pose proof PI_RGT_0. cbn [fst snd t_ang w against p_rot].
    split; [apply vec3_ext; intros []; cbn; numR; field; lra|]. split; [apply vec3_ext; intros []; cbn; numR; field; lra|].
    left. rewrite vscale_1, qmul_one_r. reflexivity.
  - destruct quarter_x as (s & Ss & Ps & Es).
    assert (M : middle_turn 0 3 (Pose vzero qone, w) (Pose vzero q, against w) = q).
    { unfold middle_turn. cbv zeta. cbn [fst snd p_rot t_ang w against].
      replace (rotation_matrix (qconj qone) (vscale ((3 - 0) / 3) (V3 1 0 0))) with (V3 1 0 0) by (apply vec3_ext; intros []; cbn; numR; field).
      replace (rotation_matrix (qconj q) (vscale ((3 - 0) / 3) (HermiteSpec.scaled (-1) (V3 1 0 0)))) with (V3 (-1) 0 0).
      2:{ unfold q. rewrite Es. apply vec3_ext. intros []; cbn; numR; [|field|field].
          transitivity (- (s * s * 2)); [rewrite Ss; ring|field]. }
      replace (qconj qone) with (@qone R _) by (unfold qconj, qone; cbn; numR; f_equal; ring). rewrite qmul_one_r.
      replace (vneg (V3 1 0 0)) with (vscale (-1) (V3 1 0 0)) by (apply vec3_ext; intros []; cbn; numR; ring).
      replace (vneg (V3 (-1) 0 0)) with (vscale 1 (V3 1 0 0)) by (apply vec3_ext; intros []; cbn; numR; ring).
      unfold q. replace (V3 (PI / 2) 0 0) with (vscale (PI / 2) (V3 1 0 0)) by (apply vec3_ext; intros []; cbn; numR; ring).
      rewrite !qexp_add. do 2 f_equal. ring. }
    rewrite M. unfold q. rewrite Es. cbn [qw]. lra.
Qed.

Example C110_example : exists (x x' : se3_curve R) ta ka tb kb, exact_kindr std_kindr /\ shortest std_kindr /\
  consistent (h_mgr x) /\ consistent (h_mgr x') /\ unit_knots x /\ opposite x x' /\ (2 <= se3_size x)%nat /\
  adjacent (contents (h_mgr x)) (ta, ka) (tb, kb) /\ one_axis ka kb /\ qw (middle_turn ta tb ka kb) <> 0 /\ ta <= 1 <= tb.
Proof.
  destruct two_knots_opposite as (x & x' & A & B & C & D & E & F & G & ka & kb & H & I & J).
  exists x, x', 0, ka, 3, kb. do 6 (split; [assumption|]). split; [rewrite F; lia|]. split; [exists [], []; exact H|]. split; [exact I|].
  split; [exact J|]. lra.
Qed.

(** C110_fit: the poses of the other examples, without a half turn between the first and the third. *)
Example C110_fit_example : exists vs : list (pose R), length ts4 = length vs /\ (2 <= length ts4)%nat /\ increasing_times ts4 /\
  (0 + N.of_nat (length ts4) < 2 ^ 64)%N /\ (forall v, In v vs -> unit_quat (p_rot v)) /\ no_half_turns vs.
Proof.
  exists [Pose vzero qone; Pose vzero (Quat 0 1 0 0); Pose vzero (Quat (3 / 5) 0 0 (4 / 5)); Pose vzero (Quat 0 1 0 0)].
  split; [reflexivity|]. split; [cbn; lia|]. split; [exact ts4_increasing|]. split; [reflexivity|]. split.
  - intros v [<-|[<-|[<-|[<-|[]]]]]; unfold unit_quat; cbn; numR; lra.
  - intros [|[|i]] a b Ea Eb; [| |cbn in Eb; destruct i; discriminate]; injection Ea as <-; injection Eb as <-; cbn; numR; lra.
Qed.
