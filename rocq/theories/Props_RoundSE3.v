(** * C105, C106: rounding errors of the cubic Hermite SE3 curve *)

From Coquelicot Require Import Coquelicot.
From Coq Require Import List Bool Arith NArith ZArith Reals Lra Lia Sorting.Sorted.
From Flocq Require Import Core IEEE754.BinarySingleNaN.
From Verif Require Import Base TimeOrder TimeB64 TimeInst KeyGen Manager ManagerSpec ManagerProofs ManagerProofs2
  Num NumB64 Sampling HermiteE3 HermiteSpec HermiteE3Proofs HermiteB64 HermiteErr Props_Binary64 Props_Rounding
  Quat QuatSpec QuatProofs QuatDist QuatErr QuatLog HermiteSE3 HermiteSE3Spec HermiteSE3Proofs Props_HermiteSE3.
Import ListNotations.
Local Open Scope R_scope.

Local Notation u := (bpow radix2 (-53)).

(** ** Vocabulary *)

(** A stored quaternion is of length one up to [e]; its direction is the rotation it stands for. *)
Definition near_unit (e : R) (q : quat b64) : Prop := finite_quat q /\ Rabs (qnorm (real_quat q) - 1) <= e.
Definition normalised (q : quat b64) : quat R :=
  let n := qnorm (real_quat q) in Quat (B2R (qw q) / n) (B2R (qx q) / n) (B2R (qy q) / n) (B2R (qz q) / n).

(** The curve over the reals with the same knots, the rotations normalised. *)
Definition real_pose (p : pose b64) : pose R := Pose (real_vec (p_pos p)) (normalised (p_rot p)).
Definition real_twist (w : twist b64) : twist R := Twist (real_vec (t_lin w)) (real_vec (t_ang w)).
Definition real_coef (k : pose b64 * twist b64) : pose R * twist R := (real_pose (fst k), real_twist (snd k)).
Definition real_se3_node (n : node b64 (pose b64 * twist b64)) : node R (pose R * twist R) :=
  Node (n_id n) (B2R (n_time n)) (n_key n) (real_coef (n_coef n)).
Definition real_se3 (c : se3_curve b64) : se3_curve R :=
  Hermite (Mgr (map real_se3_node (nodes (h_mgr c))) (index (h_mgr c)) (fresh (h_mgr c))) (Policy 0 4 0 0).

(** All times and coefficients are finite; rotations are of length one up to [e]. *)
Definition finite_se3 (e : R) (c : se3_curve b64) : Prop := forall t k, In (t, k) (contents (h_mgr c)) ->
  is_finite t = true /\ finite_knot (e3_knot k) /\ finite_vec (t_ang (snd k)) /\ near_unit e (p_rot (fst k)).

(** Segments are between 2^-200 and 2^200 long, and along no segment the angular velocity of
    one of its knots turns by more than 16 radians. *)
Definition calm (c : se3_curve b64) : Prop := forall l ta ka tb kb r,
  contents (h_mgr c) = l ++ (ta, ka) :: (tb, kb) :: r ->
  moderate (B2R tb - B2R ta) /\
  vnorm (real_vec (t_ang (snd ka))) * (B2R tb - B2R ta) <= 16 /\
  vnorm (real_vec (t_ang (snd kb))) * (B2R tb - B2R ta) <= 16.

(** kindr: exponentials of vectors up to 64 are of length one up to [e], and logarithms of
    quaternions of length about one are finite and at most 8. *)
Definition sound_kindr (e : R) (K : kindr b64) : Prop :=
  (forall v, finite_vec v -> vnorm (real_vec v) <= 64 -> near_unit e (k_exp K v)) /\
  (forall q, near_unit (1 / 8) q -> finite_vec (k_log K q) /\ vnorm (real_vec (k_log K q)) <= 8).

(** kindr: the exponential of a zero vector (whatever the signs of the zeros) is one. *)
Definition zero_to_one (K : kindr b64) : Prop :=
  forall v, val (vx v) 0 -> val (vy v) 0 -> val (vz v) 0 ->
  val (qw (k_exp K v)) 1 /\ val (qx (k_exp K v)) 0 /\ val (qy (k_exp K v)) 0 /\ val (qz (k_exp K v)) 0.

(** Equal as numbers: C++ [==] in every component. *)
Definition same_quat (p q : quat b64) : Prop :=
  neqb (qw p) (qw q) = true /\ neqb (qx p) (qx q) = true /\ neqb (qy p) (qy q) = true /\ neqb (qz p) (qz q) = true.

(** ** Lemmas on lengths *)

Lemma bits7 : bpow radix2 (-46) = 128 * u.
Proof. change (-46)%Z with (7 + -53)%Z. rewrite bpow_plus. f_equal. Qed.

Lemma near_unit_range e q : near_unit e q -> 1 - e <= qnorm (real_quat q) <= 1 + e.
Proof. intros [_ H]. apply Rabs_le_between in H. lra. Qed.

Lemma near_unit_weaken e e' q : near_unit e q -> e <= e' -> near_unit e' q.
Proof. intros [F H] L. split; [exact F|lra]. Qed.

Lemma near_unit_conj e q : near_unit e q -> near_unit e (qconj q).
Proof.
  intros [F H]. destruct (qnear_conj _ _ _ (qnear_self q F)) as [Fc Dc]. split; [exact Fc|].
  pose proof (qdist_norms (real_quat (qconj q)) (qconj (real_quat q))) as Q. rewrite qnorm_conj in Q.
  assert (E : Rabs (qnorm (real_quat (qconj q)) - qnorm (real_quat q)) <= 0) by lra.
  apply Rabs_le_between in E. replace (qnorm (real_quat (qconj q))) with (qnorm (real_quat q)) by lra. exact H.
Qed.

Lemma near_unit_mul a b e f m : near_unit e a -> near_unit f b -> 0 <= e <= 1 / 10 -> 0 <= f <= 1 / 10 ->
  e + f + e * f + 32 * u <= m -> near_unit m (qmul a b).
Proof.
  intros Ha Hb He Hf Hm. pose proof (near_unit_range _ _ Ha) as Ra. pose proof (near_unit_range _ _ Hb) as Rb.
  destruct (qmul_error a b 1 1 (proj1 Ha) (proj1 Hb)) as [F D]; try lra; [rewrite Rmult_1_l; apply middling_one|].
  split; [exact F|]. pose proof (qdist_norms (real_quat (qmul a b)) (qmul (real_quat a) (real_quat b))) as Q.
  rewrite qnorm_mul in Q. assert (Q' := Rle_trans _ _ _ Q D). apply Rabs_le_between in Q'. apply Rabs_le.
  assert ((1 - e) * (1 - f) <= qnorm (real_quat a) * qnorm (real_quat b) <= (1 + e) * (1 + f)).
  { split; apply Rmult_le_compat; lra. }
  nra.
Qed.

Lemma normalised_unit e q : near_unit e q -> e < 1 -> unit_quat (normalised q).
Proof.
  intros H He. pose proof (near_unit_range _ _ H) as Rq. pose proof (qnorm_sqr (real_quat q)) as S.
  unfold unit_quat, normalised. cbn [qw qx qy qz]. set (n := qnorm (real_quat q)) in *. cbn [real_quat qw qx qy qz] in S.
  replace (B2R (qw q) / n * (B2R (qw q) / n) + B2R (qx q) / n * (B2R (qx q) / n) + B2R (qy q) / n * (B2R (qy q) / n) +
    B2R (qz q) / n * (B2R (qz q) / n)) with
    ((B2R (qw q) * B2R (qw q) + B2R (qx q) * B2R (qx q) + B2R (qy q) * B2R (qy q) + B2R (qz q) * B2R (qz q)) / (n * n)) by (field; lra).
  rewrite <- S. field. lra.
Qed.

Lemma normalised_near e q : near_unit e q -> e < 1 -> qnear q (normalised q) e.
Proof.
  intros H He. pose proof (near_unit_range _ _ H) as Rq. split; [exact (proj1 H)|].
  pose proof (qnorm_sqr (real_quat q)) as S. unfold qdist, qminus, normalised. set (n := qnorm (real_quat q)) in *.
  apply Rle_trans with (Rabs (n - 1)); [|exact (proj2 H)].
  apply le_by_squares; [apply Rabs_pos|]. rewrite qnorm_sqr, <- Rabs_mult, (Rabs_pos_eq ((n - 1) * (n - 1))) by apply Rle_0_sqr.
  cbn [real_quat qw qx qy qz] in *. right.
  transitivity ((B2R (qw q) * B2R (qw q) + B2R (qx q) * B2R (qx q) + B2R (qy q) * B2R (qy q) + B2R (qz q) * B2R (qz q)) *
    ((n - 1) * (n - 1)) / (n * n)); [field; lra|]. rewrite <- S. field. lra.
Qed.

Lemma same_by_real p q : finite_quat p -> finite_quat q -> real_quat p = real_quat q -> same_quat p q.
Proof.
  destruct p as [a b c d], q as [a' b' c' d']. intros (A1 & A2 & A3 & A4) (B1 & B2 & B3 & B4) E.
  unfold real_quat in E. cbn [qw qx qy qz] in *. injection E as E1 E2 E3 E4.
  unfold same_quat. cbn [qw qx qy qz].
  split; [|split; [|split]]; (eapply val_eqb; [split; [eassumption|eassumption]|now apply finite_val]).
Qed.

(** ** One segment *)

Section Segment.
Variables (K : kindr b64) (ta tb t : b64) (ka kb : pose b64 * twist b64).
Hypothesis Fa : is_finite ta = true.
Hypothesis Fb : is_finite tb = true.
Hypothesis Ft : is_finite t = true.
Let D := B2R tb - B2R ta.
Hypothesis HD : moderate D.
Hypothesis Ht : B2R ta <= B2R t <= B2R tb.
Hypothesis Wa : finite_vec (t_ang (snd ka)).
Hypothesis Wb : finite_vec (t_ang (snd kb)).
Hypothesis Ba : vnorm (real_vec (t_ang (snd ka))) * D <= 16.
Hypothesis Bb : vnorm (real_vec (t_ang (snd kb))) * D <= 16.
Let x := (B2R t - B2R ta) / D.
Let alpha := ndiv (nsub t ta) (nsub tb ta).
Let third := ndiv (nsub tb ta) (nofZ 3).

Lemma here_alpha : near alpha x (33 / 10) 1 /\ 0 <= x <= 1.
Proof.
  pose proof (moderate_pos _ HD) as P. split.
  - apply near_alpha; [now apply finite_val|now apply finite_val|now apply finite_val|exact Ht|now apply moderate_middling].
  - unfold x. split.
    + apply Rmult_le_pos; [lra|]. left. now apply Rinv_0_lt_compat.
    + apply Rmult_le_reg_r with D; [exact P|]. unfold D in *. field_simplify; lra.
Qed.

Section Length.
Variable e : R.
Hypothesis He : 0 <= e <= / 64.
Hypothesis Qa : near_unit e (p_rot (fst ka)).
Hypothesis Qb : near_unit e (p_rot (fst kb)).
Hypothesis HK : sound_kindr e K.

Lemma length_w k : finite_vec (t_ang (snd k)) -> vnorm (real_vec (t_ang (snd k))) * D <= 16 -> near_unit e (p_rot (fst k)) ->
  exists W, vnear (se3_w1 third k) W (440 * u) /\ vnorm W <= 6.
Proof.
  intros F B Q. pose proof (near_unit_range _ _ Q) as Rq.
  destruct (w_near ta tb HD third (third_near ta tb Fa Fb HD) k (real_quat (p_rot (fst k))) 0 (65 / 64) F B (qnear_self _ (proj1 Q))) as [H1 H2]; try lra.
  eexists. split; [|exact H2]. eapply vnear_weaken; [exact H1|lra].
Qed.

Lemma length_exp v V f : vnear v V f -> vnorm V + f <= 64 -> near_unit e (k_exp K v).
Proof. intros H L. apply (proj1 HK); [exact (proj1 H)|]. pose proof (vnear_norm _ _ _ H). lra. Qed.

Lemma length_scaled y Y v V f : near y Y 60 1 -> 0 <= Y <= 1 -> vnear v V f -> f <= / 10 -> vnorm V <= 9 ->
  near_unit e (k_exp K (vscale y v)).
Proof.
  intros Hy HY Hv Hf HV. pose proof u_small as U.
  assert (M : middling 9) by (apply middling_between; lra).
  pose proof (vnear_scale y Y v V f 9 Hy HY Hv ltac:(lra) ltac:(lra) M) as S.
  eapply length_exp; [exact S|]. rewrite vnorm_scale, Rabs_pos_eq by lra.
  assert (Y * vnorm V <= 1 * 9) by (apply Rmult_le_compat; auto using vnorm_pos; lra). lra.
Qed.

Lemma length_product a b c d : near_unit e a -> near_unit e b -> near_unit e c -> near_unit e d ->
  near_unit (5 * e + bpow radix2 (-46)) (qmul (qmul (qmul a b) c) d).
Proof.
  intros Ha Hb Hc Hd. pose proof u_small as U. rewrite bits7. assert (e * e <= e * / 64) by (apply Rmult_le_compat_l; lra). assert (e * u <= / 64 * u) by (apply Rmult_le_compat_r; lra).
  assert (P1 : near_unit (202 / 100 * e + 32 * u) (qmul a b)) by (eapply near_unit_mul; eauto; lra).
  assert (P2 : near_unit (307 / 100 * e + 65 * u) (qmul (qmul a b) c)) by (eapply near_unit_mul; eauto; nra).
  eapply near_unit_mul; eauto; nra.
Qed.

Lemma length_log : finite_vec (se3_w2 K third ka kb) /\ vnorm (real_vec (se3_w2 K third ka kb)) <= 8.
Proof.
  pose proof u_small as U. destruct (length_w ka Wa Ba Qa) as (W1 & V1 & N1), (length_w kb Wb Bb Qb) as (W3 & V3 & N3).
  apply (proj2 HK). eapply near_unit_weaken.
  - apply length_product; auto using near_unit_conj.
    + eapply length_exp; [apply vnear_neg, V1|]. rewrite vnorm_neg. lra.
    + eapply length_exp; [apply vnear_neg, V3|]. rewrite vnorm_neg. lra.
  - assert (bpow radix2 (-46) < / 1000) by (simpl; lra). lra.
Qed.

Lemma segment_length : near_unit (5 * e + bpow radix2 (-46)) (se3_segment_rotation K ta tb ka kb t).
Proof.
  pose proof u_small as U. destruct (length_w ka Wa Ba Qa) as (W1 & V1 & N1), (length_w kb Wb Bb Qb) as (W3 & V3 & N3).
  destruct length_log as [L1 L2]. destruct here_alpha as [Al Hx].
  assert (V2 : vnear (se3_w2 K third ka kb) (real_vec (se3_w2 K third ka kb)) 0) by (split; [exact L1|rewrite vdist_self; lra]).
  unfold se3_segment_rotation. apply length_product; [exact Qa|..].
  - eapply length_scaled; [eapply near_weight1; eauto|now apply weight1_range|exact V1|lra|lra].
  - eapply length_scaled; [eapply near_weight2; eauto|now apply weight2_range|exact V2|lra|lra].
  - eapply length_scaled; [eapply near_weight3; eauto|now apply weight3_range|exact V3|lra|lra].
Qed.

(** At the first knot of the segment. *)
Lemma val_sub_0 (y z : b64) (r : R) : val y r -> val z 0 -> val (nsub y z) r.
Proof. intros Hy Hz. rewrite <- (Rminus_0_r r). eapply val_sub; eauto. rewrite Rminus_0_r. exact Hy. Qed.

Lemma times_one (q o : quat b64) : finite_quat q ->
  val (qw o) 1 /\ val (qx o) 0 /\ val (qy o) 0 /\ val (qz o) 0 ->
  val (qw (qmul q o)) (B2R (qw q)) /\ val (qx (qmul q o)) (B2R (qx q)) /\
  val (qy (qmul q o)) (B2R (qy q)) /\ val (qz (qmul q o)) (B2R (qz q)).
Proof.
  intros (F1 & F2 & F3 & F4) (O1 & O2 & O3 & O4). apply finite_val in F1, F2, F3, F4. unfold qmul. cbn [qw qx qy qz].
  split; [|split; [|split]].
  - apply val_sub_0; [apply val_sub_0; [apply val_sub_0|]|];
      [apply val_mul_1_r; assumption|eapply val_mul_0_r; eassumption|eapply val_mul_0_r; eassumption|eapply val_mul_0_r; eassumption].
  - apply val_sub_0; [apply val_add_0_r; [apply val_add_0_l|]|];
      [eapply val_mul_0_r; eassumption|apply val_mul_1_r; assumption|eapply val_mul_0_r; eassumption|eapply val_mul_0_r; eassumption].
  - apply val_add_0_r; [apply val_add_0_l; [apply val_sub_0|]|];
      [eapply val_mul_0_r; eassumption|eapply val_mul_0_r; eassumption|apply val_mul_1_r; assumption|eapply val_mul_0_r; eassumption].
  - apply val_add_0_l; [apply val_sub_0; [apply val_add_0_l|]|apply val_mul_1_r; assumption];
      [eapply val_mul_0_r; eassumption|eapply val_mul_0_r; eassumption|eapply val_mul_0_r; eassumption].
Qed.

Lemma segment_start : zero_to_one K -> B2R t = B2R ta ->
  same_quat (se3_segment_rotation K ta tb ka kb t) (p_rot (fst ka)).
Proof.
  intros HZ Et. destruct (length_w ka Wa Ba Qa) as (W1 & [V1 _] & _), (length_w kb Wb Bb Qb) as (W3 & [V3 _] & _).
  destruct length_log as [V2 _]. pose proof (moderate_pos _ HD) as P.
  assert (A0 : val alpha 0).
  { assert (L := near_length ta tb _ _ (finite_val _ Fa) (finite_val _ Fb) (moderate_middling _ HD)). destruct L as [FL EL].
    eapply val_div_0; [|apply (val_sub_same _ _ (B2R ta)); [split; auto|now apply finite_val]|apply finite_val, FL].
    intros Z. rewrite Z in EL. fold D in EL. rewrite Rminus_0_l, Rabs_Ropp, Rabs_pos_eq in EL by lra. pose proof u_small. nra. }
  assert (A2 : val (nmul alpha alpha) 0) by (eapply val_mul_0_r; eassumption).
  assert (A3 : val (nmul (nmul alpha alpha) alpha) 0) by (eapply val_mul_0_r; eassumption).
  pose proof (val_int 3 ltac:(vm_compute; discriminate)) as I3.
  pose proof (val_opp _ _ (val_int 2 ltac:(vm_compute; discriminate))) as I2.
  assert (B1 : val (nadd (nsub (nmul (nmul alpha alpha) alpha) (nmul (nofZ 3) (nmul alpha alpha))) (nmul (nofZ 3) alpha)) 0).
  { apply val_add_0_r; [apply val_sub_0; [exact A3|]|]; eapply val_mul_0_r; eassumption. }
  assert (B2 : val (nadd (nmul (nopp (nofZ 2)) (nmul (nmul alpha alpha) alpha)) (nmul (nofZ 3) (nmul alpha alpha))) 0).
  { apply val_add_0_r; eapply val_mul_0_r; eassumption. }
  assert (E : forall y v, val y 0 -> finite_vec v -> val (qw (k_exp K (vscale y v))) 1 /\ val (qx (k_exp K (vscale y v))) 0 /\
    val (qy (k_exp K (vscale y v))) 0 /\ val (qz (k_exp K (vscale y v))) 0).
  { intros y v Hy (F1 & F2 & F3). apply finite_val in F1, F2, F3.
    apply HZ; cbn [vscale vx vy vz]; eapply val_mul_0_l; eassumption. }
  assert (Chain : forall q, finite_quat q -> forall o, val (qw o) 1 /\ val (qx o) 0 /\ val (qy o) 0 /\ val (qz o) 0 ->
    finite_quat (qmul q o) /\ real_quat (qmul q o) = real_quat q).
  { intros q Fq o Ho. destruct (times_one q o Fq Ho) as ([T1 U1] & [T2 U2] & [T3 U3] & [T4 U4]).
    split; [repeat split; assumption|]. unfold real_quat. now rewrite U1, U2, U3, U4. }
  unfold se3_segment_rotation. fold alpha third.
  destruct (Chain _ (proj1 Qa) _ (E _ _ B1 V1)) as [C1 R1]. destruct (Chain _ C1 _ (E _ _ B2 V2)) as [C2 R2].
  destruct (Chain _ C2 _ (E _ _ A3 V3)) as [C3 R3].
  apply same_by_real; [exact C3|exact (proj1 Qa)|exact (eq_trans R3 (eq_trans R2 R1))].
Qed.
End Length.
End Segment.

(** ** The look-up *)

Lemma real_translation c : translation (real_se3 c) = real_curve (translation c).
Proof.
  unfold translation, mgr_map, real_curve. cbn [real_se3 h_mgr nodes index fresh]. rewrite !map_map. reflexivity.
Qed.

Lemma finite_translation e c : finite_se3 e c -> finite_curve (translation c).
Proof.
  intros H t k Hi. unfold translation in Hi. rewrite map_contents in Hi. apply in_map_iff in Hi as ((t0 & k0) & E & Hi).
  injection E as <- <-. destruct (H _ _ Hi) as (F & A & _). now split.
Qed.

Section Lookup.
Variables (e : R) (c : se3_curve b64).
Hypothesis Hc : consistent (h_mgr c).
Hypothesis Hf : finite_se3 e c.

Lemma node_finite n : In n (nodes (h_mgr c)) -> In (n_time n, n_coef n) (contents (h_mgr c)).
Proof. intros Hn. unfold contents. now apply (in_map (fun n => (n_time n, n_coef n))) in Hn. Qed.

Lemma se3_bracket (l : list (node b64 (pose b64 * twist b64))) (t : b64) : is_finite t = true ->
  (forall n, In n l -> is_finite (n_time n) = true) -> forall p,
  bracket_from (real_se3_node p) (map real_se3_node l) (B2R t) =
  option_map (fun ab => (real_se3_node (fst ab), real_se3_node (snd ab))) (bracket_from p l t).
Proof.
  intros Ft. induction l as [|n l IH]; intros Hl p; [reflexivity|]. cbn [map bracket_from n_time real_se3_node].
  rewrite same_lt by (auto; apply Hl; now left). destruct (tlt t (n_time n)); [reflexivity|].
  apply IH. intros y Hy. apply Hl. now right.
Qed.

Lemma se3_max : max_time (h_mgr (real_se3 c)) = B2R (max_time (h_mgr c)) /\ is_finite (max_time (h_mgr c)) = true.
Proof.
  unfold max_time, last_node. cbn [nodes real_se3 h_mgr]. rewrite <- map_rev.
  destruct (rev (nodes (h_mgr c))) as [|n r] eqn:E; [now split|]. split; [reflexivity|].
  apply (Hf _ (n_coef n)). apply node_finite, in_rev. rewrite E. now left.
Qed.

Lemma se3_min : min_time (h_mgr (real_se3 c)) = B2R (min_time (h_mgr c)) /\ is_finite (min_time (h_mgr c)) = true.
Proof.
  unfold min_time. cbn [nodes real_se3 h_mgr]. destruct (nodes (h_mgr c)) as [|n r] eqn:E; [now split|].
  split; [reflexivity|]. apply (Hf _ (n_coef n)), node_finite. rewrite E. now left.
Qed.

Lemma se3_lookup (t : b64) : is_finite t = true ->
  get_coefficients_at (h_mgr (real_se3 c)) (B2R t) =
  option_map (fun ab => (real_se3_node (fst ab), real_se3_node (snd ab))) (get_coefficients_at (h_mgr c) t).
Proof.
  intros Ft. destruct se3_max as [Em Fm]. unfold get_coefficients_at. rewrite Em.
  assert (Ee : empty (h_mgr (real_se3 c)) = empty (h_mgr c))
    by (unfold empty; cbn [nodes real_se3 h_mgr]; now destruct (nodes (h_mgr c))).
  assert (Et : teq (B2R t) (B2R (max_time (h_mgr c))) = teq t (max_time (h_mgr c))) 
    by (rewrite teq_def; unfold teq, tequiv; cbn [tnum b64_raw_TimeOps]; rewrite !finite_num, !same_lt by assumption; reflexivity).
  rewrite Ee, Et. destruct (empty (h_mgr c)); [reflexivity|]. destruct (teq t (max_time (h_mgr c))).
  - unfold last_two. cbn [nodes real_se3 h_mgr]. rewrite <- map_rev. destruct (rev (nodes (h_mgr c))) as [|x [|y r]]; reflexivity.
  - assert (Fn : forall n, In n (nodes (h_mgr c)) -> is_finite (n_time n) = true)
      by (intros n Hn; apply (Hf _ (n_coef n)), node_finite, Hn).
    cbn [nodes real_se3 h_mgr]. destruct (nodes (h_mgr c)) as [|n l] eqn:E; [reflexivity|].
    cbn [map bracket_upper n_time real_se3_node].
    rewrite same_lt by (auto; apply Fn; now left). destruct (tlt t (n_time n)); [reflexivity|].
    apply se3_bracket; [exact Ft|]. intros x Hx. apply Fn. now right.
Qed.

(** What a look-up finds. *)
Lemma se3_found (t : b64) n0 n1 : is_finite t = true -> get_coefficients_at (h_mgr c) t = Some (n0, n1) ->
  exists l r, contents (h_mgr c) = l ++ (n_time n0, n_coef n0) :: (n_time n1, n_coef n1) :: r /\
    B2R (n_time n0) <= B2R t <= B2R (n_time n1) /\
    In (n_time n0, n_coef n0) (contents (h_mgr c)) /\ In (n_time n1, n_coef n1) (contents (h_mgr c)).
Proof.
  intros Ft E.
  assert (Cut : exists l r, nodes (h_mgr c) = l ++ n0 :: n1 :: r).
  { unfold get_coefficients_at in E. destruct (empty (h_mgr c)); [discriminate|]. destruct (teq t (max_time (h_mgr c))).
    - unfold last_two in E. destruct (rev (nodes (h_mgr c))) as [|x [|y q]] eqn:Er; try discriminate. injection E as <- <-.
      exists (rev q), []. rewrite <- (rev_involutive (nodes (h_mgr c))), Er. cbn [rev]. now rewrite <- !app_assoc.
    - unfold bracket_upper in E. destruct (nodes (h_mgr c)) as [|n q]; [discriminate|]. destruct (tlt t (n_time n)); [discriminate|].
      clear - E. revert n E. induction q as [|n' q IH]; intros n E; [discriminate|]. cbn [bracket_from] in E.
      destruct (tlt t (n_time n')).
      + injection E as <- <-. now exists [], q.
      + destruct (IH _ E) as (l & r & ->). now exists (n :: l), r. }
  destruct Cut as (l & r & Ec).
  assert (I0 : In n0 (nodes (h_mgr c))) by (rewrite Ec, in_app_iff; simpl; auto).
  assert (I1 : In n1 (nodes (h_mgr c))) by (rewrite Ec, in_app_iff; simpl; auto).
  exists (map (fun n => (n_time n, n_coef n)) l), (map (fun n => (n_time n, n_coef n)) r).
  split; [unfold contents; now rewrite Ec, map_app|]. split; [|split; now apply node_finite].
  destruct (both_lookup (translation c) t) as [[L _]|(m0 & m1 & l' & r' & L & _ & _ & _ & _ & _ & _ & B)];
    [now apply map_consistent|eapply finite_translation; eassumption|exact Ft|..];
    unfold translation in L; rewrite map_get_at, E in L; [discriminate|].
  unfold option_map, pair_map in L. cbn [fst snd] in L.
  assert (m0 = node_map e3_knot n0) as -> by congruence. assert (m1 = node_map e3_knot n1) as -> by congruence. exact B.
Qed.

Lemma se3_ends (t : b64) : is_finite t = true ->
  neqb (max_time (h_mgr (real_se3 c))) (B2R t) && neqb (min_time (h_mgr (real_se3 c))) (B2R t) =
  neqb (max_time (h_mgr c)) t && neqb (min_time (h_mgr c)) t.
Proof. intros Ft. destruct se3_max as [-> F1], se3_min as [-> F2]. now rewrite !same_eq. Qed.

Lemma se3_first_knot : (nodes (h_mgr c) = [] /\ se3_first c = UB /\ se3_first (real_se3 c) = UB) \/
  exists t k, In (t, k) (contents (h_mgr c)) /\ se3_first c = Ok k /\ se3_first (real_se3 c) = Ok (real_coef k).
Proof.
  unfold se3_first. cbn [nodes real_se3 h_mgr]. pose proof node_finite as N. destruct (nodes (h_mgr c)) as [|n l]; [left; auto|].
  right. exists (n_time n), (n_coef n). split; [apply N; now left|]. split; reflexivity.
Qed.
End Lookup.

(** ** C105 *)

(** The position of an SE3 curve in double precision is the exact one up to 2^-45 of the
    size of the data, whatever kindr's exponential and logarithm do to the orientation. *)
Theorem C105_position : forall (K : kindr b64) (K' : kindr R) (e : R) (c : se3_curve b64) (M D : R) (t : b64),
  consistent (h_mgr c) -> finite_se3 e c -> tame M D (translation c) -> is_finite t = true ->
  agrees (bpow radix2 (-45) * M) (on_value p_pos (se3_evaluate K c t))
    (on_value p_pos (se3_evaluate K' (real_se3 c) (B2R t))).
Proof.
  intros K K' e c M D t Hc Hf T Ft. rewrite <- !translation_evaluate, real_translation.
  apply (C91_position _ M D); [now apply map_consistent|now apply (finite_translation e)|exact T|exact Ft].
Qed.

(** The linear velocity and the linear acceleration likewise. *)
Theorem C105_velocity : forall (K : kindr b64) (K' : kindr R) (e : R) (c : se3_curve b64) (M D : R) (t : b64),
  consistent (h_mgr c) -> finite_se3 e c -> tame M D (translation c) -> is_finite t = true ->
  agrees (bpow radix2 (-45) * (M / D)) (on_value t_lin (se3_evaluate_derivative K c t 1))
    (on_value t_lin (se3_evaluate_derivative K' (real_se3 c) (B2R t) 1)) /\
  agrees (bpow radix2 (-44) * (M / (D * D))) (se3_evaluate_acceleration c t)
    (se3_evaluate_acceleration (real_se3 c) (B2R t)).
Proof.
  intros K K' e c M D t Hc Hf T Ft. split.
  - rewrite <- !translation_velocity, real_translation. apply (C91_velocity _ M D); [now apply map_consistent|now apply (finite_translation e)|exact T|exact Ft].
  - rewrite <- !translation_acceleration, real_translation. apply (C91_acceleration _ M D); [now apply map_consistent|now apply (finite_translation e)|exact T|exact Ft].
Qed.

(** The computed orientation is a finite quaternion of length one up to five times the error
    of the stored rotations and of kindr's exponential, although nothing normalises it. *)
Theorem C105_unit : forall (K : kindr b64) (e : R) (c : se3_curve b64) (t : b64) (p : pose b64),
  consistent (h_mgr c) -> 0 <= e <= / 64 -> finite_se3 e c -> calm c -> sound_kindr e K -> is_finite t = true ->
  se3_evaluate K c t = Ok (Some p) -> near_unit (5 * e + bpow radix2 (-46)) (p_rot p).
Proof.
  intros K e c t p Hc He Hf Hq HK Ft E. unfold se3_evaluate in E.
  destruct (_ && _).
  - destruct (se3_first_knot c) as [(_ & F & _)|(t0 & k & Hi & F & _)]; rewrite F in E; [discriminate|].
    cbn [bind] in E. assert (p = fst k) as -> by congruence.
    eapply near_unit_weaken; [eapply Hf, Hi|]. pose proof (bpow_gt_0 radix2 (-46)). lra.
  - destruct (get_coefficients_at (h_mgr c) t) as [[n0 n1]|] eqn:L; [|discriminate].
    destruct (se3_found e c Hc Hf t n0 n1 Ft L) as (l & r & Ec & B & I0 & I1).
    destruct (Hf _ _ I0) as (F0 & _ & W0 & Q0), (Hf _ _ I1) as (F1 & _ & W1 & Q1).
    destruct (Hq _ _ _ _ _ _ Ec) as (HD & B0 & B1).
    assert (p_rot p = se3_segment_rotation K (n_time n0) (n_time n1) (n_coef n0) (n_coef n1) t) as ->
      by (apply (f_equal (fun o => match o with Ok (Some q) => p_rot q | _ => p_rot p end)) in E; exact (eq_sym E)).
    now apply segment_length.
Qed.

Lemma sorted_around {A} (R : A -> A -> Prop) a x b : StronglySorted R (a ++ x :: b) ->
  (forall y, In y a -> R y x) /\ (forall y, In y b -> R x y).
Proof.
  induction a as [|z a IH]; cbn [app]; intros H; apply StronglySorted_inv in H as [H F].
  - split; [now intros y []|]. now apply Forall_forall.
  - destruct (IH H) as [H1 H2]. split; [|exact H2]. intros y [<-|Hy]; [|now apply H1].
    rewrite Forall_forall in F. apply F. rewrite in_app_iff. right. now left.
Qed.

Lemma calm_bounded e c : finite_se3 e c -> calm c -> bounded_segments (translation c).
Proof.
  intros Hf Hq l ta ka tb kb r E. unfold translation in E. rewrite map_contents in E.
  apply map_eq_app in E as (l0 & r0 & E & <- & E1). apply map_eq_cons in E1 as ([ta0 ka0] & r1 & -> & E1 & E2).
  apply map_eq_cons in E2 as ([tb0 kb0] & r2 & -> & E2 & _). cbn [fst snd] in *.
  assert (ta0 = ta) as -> by congruence. assert (tb0 = tb) as -> by congruence.
  destruct (Hq _ _ _ _ _ _ E) as (HD & _).
  assert (is_finite ta = true) by (apply (Hf _ ka0); rewrite E, in_app_iff; simpl; auto).
  assert (is_finite tb = true) by (apply (Hf _ kb0); rewrite E, in_app_iff; simpl; auto).
  apply (near_length ta tb (B2R ta) (B2R tb)); auto using finite_val, moderate_middling.
Qed.

(** At every knot but the last the computed pose is the stored one, exactly. *)
Theorem C105_knots : forall (K : kindr b64) (e : R) (c : se3_curve b64) (t : b64) (k : pose b64 * twist b64) (s : b64),
  consistent (h_mgr c) -> 0 <= e <= / 64 -> finite_se3 e c -> calm c -> sound_kindr e K -> zero_to_one K ->
  In (t, k) (contents (h_mgr c)) -> tlt t (max_time (h_mgr c)) = true \/ size (h_mgr c) = 1%nat -> neqb s t = true ->
  exists p, se3_evaluate K c s = Ok (Some p) /\ same_vec (p_pos p) (p_pos (fst k)) /\ same_quat (p_rot p) (p_rot (fst k)).
Proof.
  intros K e c t k s Hc He Hf Hq HK HZ Hi Hl Hs.
  destruct (Hf _ _ Hi) as (Ft & _ & _ & Qt). pose proof (eqb_val _ _ _ (finite_val _ Ft) Hs) as Vs. destruct Vs as [Fs Es].
  assert (Ti : In (t, e3_knot k) (contents (translation c))).
  { unfold translation. rewrite map_contents. exact (in_map (fun tc => (fst tc, e3_knot (snd tc))) _ _ Hi). }
  destruct (C41_curve_at_knots (translation c) t (e3_knot k) s) as (v & Ev & Sv); auto.
  { now apply map_consistent. } { eapply finite_translation; eassumption. } { eapply calm_bounded; eassumption. }
  rewrite (translation_evaluate K) in Ev. destruct (se3_evaluate K c s) as [[p|]| | |] eqn:E; try discriminate.
  cbn [on_value] in Ev. assert (v = p_pos p) as -> by congruence. exists p. split; [reflexivity|]. split; [exact Sv|].
  destruct (se3_max e c Hf) as [_ Fm]. destruct (se3_min e c Hf) as [_ Fmin].
  assert (Lt : forall a b : b64, is_finite a = true -> is_finite b = true -> tlt a b = true -> B2R a < B2R b).
  { intros a b A B L. now apply (ltb_val a b _ _ (finite_val _ A) (finite_val _ B)). }
  unfold se3_evaluate in E. destruct (_ && _) eqn:Em.
  - apply andb_true_iff in Em as [E1 E2]. apply (eqb_val _ _ _ (finite_val _ Fs)) in E1 as [_ E1].
    destruct Hl as [Hl|Hl]; [apply Lt in Hl; auto; lra|].
    unfold se3_first in E. unfold size in Hl. unfold contents in Hi. destruct (nodes (h_mgr c)) as [|n [|n' q]]; try discriminate.
    destruct Hi as [Hi|[]]. cbn [bind] in E. assert (p = fst (n_coef n)) as -> by congruence.
    assert (n_coef n = k) as -> by congruence. now apply same_by_real; [apply Qt|apply Qt|].
  - destruct (get_coefficients_at (h_mgr c) s) as [[n0 n1]|] eqn:L; [|discriminate].
    assert (X : exists l r, nodes (h_mgr c) = l ++ n0 :: n1 :: r /\ B2R (n_time n0) <= B2R s /\
      (B2R s < B2R (n_time n1) \/ (r = [] /\ B2R s = B2R (n_time n1)))).
    { assert (Fn : forall n, In n (nodes (h_mgr c)) -> is_finite (n_time n) = true)
        by (intros n Hn; apply (Hf _ (n_coef n)), node_finite, Hn).
      destruct (se3_found e c Hc Hf s n0 n1 Fs L) as (l & r & Ec & B & I0 & I1).
      unfold get_coefficients_at in L. destruct (empty (h_mgr c)); [discriminate|]. destruct (teq s (max_time (h_mgr c))) eqn:Et.
      - unfold last_two in L. destruct (rev (nodes (h_mgr c))) as [|x [|y q]] eqn:Er; try discriminate.
        assert (y = n0) as -> by congruence. assert (x = n1) as -> by congruence.
        exists (rev q), []. rewrite <- (rev_involutive (nodes (h_mgr c))), Er. cbn [rev]. rewrite <- !app_assoc.
        split; [reflexivity|]. split; [lra|]. right. split; [reflexivity|].
        unfold max_time, last_node in Et. rewrite Er in Et.
        assert (F1 : is_finite (n_time n1) = true) by (apply Fn, in_rev; rewrite Er; now left).
        unfold teq, tequiv in Et. cbn [tnum b64_raw_TimeOps] in Et. rewrite !finite_num in Et by assumption.
        rewrite <- !same_lt in Et by assumption.
        apply andb_true_iff in Et as [_ Et]. apply andb_true_iff in Et as [E1 E2]. apply negb_true_iff in E1, E2.
        change (Rltb (B2R s) (B2R (n_time n1)) = false) in E1. change (Rltb (B2R (n_time n1)) (B2R s) = false) in E2.
        apply Rltb_ge in E1. apply Rltb_ge in E2. lra.
      - unfold bracket_upper in L. destruct (nodes (h_mgr c)) as [|n q]; [discriminate|].
        destruct (tlt s (n_time n)) eqn:Ln; [discriminate|].
        assert (G : forall (q : list (node b64 (pose b64 * twist b64))) (n : node b64 (pose b64 * twist b64)), (forall x, In x (n :: q) -> is_finite (n_time x) = true) -> bracket_from n q s = Some (n0, n1) ->
          exists l r, n :: q = l ++ n0 :: n1 :: r /\ B2R s < B2R (n_time n1)).
        { clear - Fs Lt. induction q as [|n' q IH]; intros n F L; [discriminate|]. cbn [bracket_from] in L.
          destruct (tlt s (n_time n')) eqn:Ln.
          - assert (n = n0) as -> by congruence. assert (n' = n1) as -> by congruence. exists [], q. split; [reflexivity|].
            apply Lt; auto. apply F. simpl; auto.
          - destruct (IH n') as (l & r & -> & H); auto; [intros x Hx; apply F; now right|]. now exists (n :: l), r. }
        destruct (G q n Fn L) as (l' & r' & -> & H). exists l', r'. split; [reflexivity|]. split; [lra|]. now left. }
    destruct X as (l & r & En & B0 & B1).
    destruct (se3_found e c Hc Hf s n0 n1 Fs L) as (l' & r' & Ec & B & I0 & I1).
    destruct (Hf _ _ I0) as (F0 & _ & W0 & Q0), (Hf _ _ I1) as (F1 & _ & W1 & Q1).
    destruct (Hq _ _ _ _ _ _ Ec) as (HD & V0 & V1).
    assert (T : t = n_time n0 /\ k = n_coef n0).
    { pose proof (cons_sorted _ Hc) as Sd. rewrite En in Sd.
      assert (Sd1 := Sd). apply sorted_around in Sd1 as [S1 S2].
      assert (Sd2 := Sd). replace (l ++ n0 :: n1 :: r) with ((l ++ [n0]) ++ n1 :: r) in Sd2 by (now rewrite <- app_assoc).
      apply sorted_around in Sd2 as [S3 S4].
      assert (Hn : exists n, In n (nodes (h_mgr c)) /\ n_time n = t /\ n_coef n = k).
      { unfold contents in Hi. apply in_map_iff in Hi as (n & H1 & H2). exists n. split; [exact H2|]. split; congruence. }
      destruct Hn as (n & Hn & <- & <-). assert (Hn' := Hn). rewrite En in Hn'. apply in_app_iff in Hn' as [Hn'|[<-|[<-|Hn']]].
      - exfalso. assert (Q := S1 _ Hn'). apply Lt in Q; auto. lra.
      - now split.
      - exfalso. destruct B1 as [B1|[-> B1]]; [lra|]. destruct Hl as [Hl|Hl].
        + unfold max_time, last_node in Hl. rewrite En, rev_app_distr in Hl. cbn [rev app] in Hl. apply Lt in Hl; auto. lra.
        + unfold size in Hl. rewrite En, app_length in Hl. cbn in Hl. lia.
      - exfalso. assert (Q := S4 _ Hn'). apply Lt in Q; auto. lra. }
    destruct T as [-> ->].
    assert (p_rot p = se3_segment_rotation K (n_time n0) (n_time n1) (n_coef n0) (n_coef n1) s) as ->
      by (apply (f_equal (fun o => match o with Ok (Some q) => p_rot q | _ => p_rot p end)) in E; exact (eq_sym E)).
    eapply segment_start; eauto.
Qed.

(** ** C106: the orientation *)

(** kindr: exponentials of vectors up to 64 are correct up to [e]. *)
Definition accurate_exp (e : R) (K : kindr b64) : Prop :=
  forall v, finite_vec v -> vnorm (real_vec v) <= 64 -> qnear (k_exp K v) (qexp (real_vec v)) e.

(** What remains of the rotation along a segment when the knots have had their share: the
    quaternion whose logarithm the curve takes. *)
Definition body_turn (ta tb : R) (k : pose R * twist R) : vec3 R :=
  rotation_matrix (qconj (p_rot (fst k))) (HermiteSpec.scaled ((tb - ta) / 3) (t_ang (snd k))).
Definition remaining_turn (ta tb : R) (a b : pose R * twist R) : quat R :=
  qmul (qmul (qmul (qexp (HermiteSpec.scaled (-1) (body_turn ta tb a))) (qconj (p_rot (fst a)))) (p_rot (fst b)))
       (qexp (HermiteSpec.scaled (-1) (body_turn ta tb b))).

(** kindr: up to the distance [rho] of [q] the computed logarithm differs from the exact one at [q] by
    at most [L] times the distance from [q], and [e] for its own rounding. *)
Definition stable_log (e L rho : R) (K : kindr b64) (K' : kindr R) (q : quat R) : Prop :=
  vnorm (k_log K' q) <= 8 /\
  forall q' d, d <= rho -> qnear q' q d -> vnear (k_log K q') (k_log K' q) (L * d + e).

Definition stable_turns (e L rho : R) (K : kindr b64) (K' : kindr R) (c : se3_curve b64) : Prop :=
  forall l ta ka tb kb r, contents (h_mgr c) = l ++ (ta, ka) :: (tb, kb) :: r ->
  stable_log e L rho K K' (remaining_turn (B2R ta) (B2R tb) (real_coef ka) (real_coef kb)).

(** The same outcome, with orientations at most [e] apart. *)
Definition turns_agree (e : R) (o : outcome (option (pose b64))) (o' : outcome (option (pose R))) : Prop :=
  match o, o' with
  | Ok (Some p), Ok (Some p') => qnear (p_rot p) (p_rot p') e
  | Ok None, Ok None => True
  | UB, UB => True
  | _, _ => False
  end.

Section Accuracy.
Variables (K : kindr b64) (K' : kindr R) (ta tb t : b64) (ka kb : pose b64 * twist b64).
Hypothesis Fa : is_finite ta = true.
Hypothesis Fb : is_finite tb = true.
Hypothesis Ft : is_finite t = true.
Let D := B2R tb - B2R ta.
Hypothesis HD : moderate D.
Hypothesis Ht : B2R ta <= B2R t <= B2R tb.
Hypothesis Wa : finite_vec (t_ang (snd ka)).
Hypothesis Wb : finite_vec (t_ang (snd kb)).
Hypothesis Ba : vnorm (real_vec (t_ang (snd ka))) * D <= 16.
Hypothesis Bb : vnorm (real_vec (t_ang (snd kb))) * D <= 16.
Let x := (B2R t - B2R ta) / D.
Let alpha := ndiv (nsub t ta) (nsub tb ta).
Variables e L : R.
Let g := e + bpow radix2 (-46).
Hypothesis He : 0 <= e <= / 2000.
Hypothesis HL : 0 <= L.
Hypothesis Hg : L * g <= / 200.
Hypothesis Qa : near_unit e (p_rot (fst ka)).
Hypothesis Qb : near_unit e (p_rot (fst kb)).
Hypothesis HK : accurate_exp e K.
Hypothesis HK' : forall v, k_exp K' v = qexp v.
Hypothesis HS : stable_log e L (17 * g) K K' (remaining_turn (B2R ta) (B2R tb) (real_coef ka) (real_coef kb)).

Lemma exact_w third k : near third (D / 3) 4 (D / 3) -> finite_vec (t_ang (snd k)) -> vnorm (real_vec (t_ang (snd k))) * D <= 16 -> near_unit e (p_rot (fst k)) ->
  vnear (se3_w1 third k) (body_turn (B2R ta) (B2R tb) (real_coef k)) (125 / 10 * e + 440 * u) /\
  vnorm (body_turn (B2R ta) (B2R tb) (real_coef k)) <= 6.
Proof.
  intros Hth F B Q. pose proof (normalised_near _ _ Q ltac:(lra)) as N. pose proof (qnorm_unit _ (normalised_unit _ _ Q ltac:(lra))) as U1.
  destruct (w_near ta tb HD third Hth k (normalised (p_rot (fst k))) e 1 F B N) as [H1 H2]; try lra.
  rewrite qunrotate_matrix in H1, H2. split; [exact H1|exact H2].
Qed.

Lemma exact_exp v V f : vnear v V f -> vnorm V + f <= 64 -> qnear (k_exp K v) (qexp V) (e + f / 2).
Proof.
  intros H B. pose proof (vnear_norm _ _ _ H) as N. destruct (HK v (proj1 H) ltac:(lra)) as [F E]. split; [exact F|].
  eapply Rle_trans; [apply (qdist_triangle _ (qexp (real_vec v)))|].
  pose proof (qexp_lipschitz (real_vec v) V) as P. pose proof (proj2 H). lra.
Qed.

Lemma scaled_neg v : HermiteSpec.scaled (-1) v = vneg v.
Proof. unfold HermiteSpec.scaled, vneg. numR. f_equal; ring. Qed.

Lemma exact_log third : near third (D / 3) 4 (D / 3) -> exists d, 0 <= d /\ d <= 17 * g /\
  vnear (se3_w2 K third ka kb) (k_log K' (remaining_turn (B2R ta) (B2R tb) (real_coef ka) (real_coef kb))) (L * d + e).
Proof.
  intros Hth. pose proof u_small as U. destruct (exact_w third ka Hth Wa Ba Qa) as [V1 N1], (exact_w third kb Hth Wb Bb Qb) as [V3 N3].
  assert (E1 : qnear (k_exp K (vneg (se3_w1 third ka))) (qexp (vneg (body_turn (B2R ta) (B2R tb) (real_coef ka)))) (725 / 100 * e + 220 * u)).
  { eapply qnear_weaken; [apply exact_exp; [apply vnear_neg, V1|rewrite vnorm_neg; lra]|lra]. }
  assert (E3 : qnear (k_exp K (vneg (se3_w1 third kb))) (qexp (vneg (body_turn (B2R ta) (B2R tb) (real_coef kb)))) (725 / 100 * e + 220 * u)).
  { eapply qnear_weaken; [apply exact_exp; [apply vnear_neg, V3|rewrite vnorm_neg; lra]|lra]. }
  pose proof (normalised_near _ _ Qa ltac:(lra)) as Na. pose proof (qnorm_unit _ (normalised_unit _ _ Qa ltac:(lra))) as Ua.
  pose proof (normalised_near _ _ Qb ltac:(lra)) as Nb. pose proof (qnorm_unit _ (normalised_unit _ _ Qb ltac:(lra))) as Ub.
  pose proof (qnear_conj _ _ _ Na) as Nc.
  assert (ee : 0 <= e * e <= e * / 2000) by (split; [nra|apply Rmult_le_compat_l; lra]).
  assert (eu : 0 <= e * u <= / 2000 * u) by (split; [nra|apply Rmult_le_compat_r; lra]).
  assert (uu : 0 <= u * u <= / 1000000 * u) by (split; [nra|apply Rmult_le_compat_r; lra]).
  destruct (qnear_unit_mul _ _ _ _ _ _ (826 / 100 * e + 253 * u) E1 Nc) as [P1 O1];
    [apply qexp_norm|now rewrite qnorm_conj|lra|lra|lra|].
  destruct (qnear_unit_mul _ _ _ _ _ _ (927 / 100 * e + 286 * u) P1 Nb O1 Ub) as [P2 O2]; [lra|lra|lra|].
  destruct (qnear_unit_mul _ _ _ _ _ _ (17 * g) P2 E3 O2 (qexp_norm _)) as [P3 _]; [lra|lra| |].
  { unfold g. rewrite bits7. lra. }
  exists (17 * g). assert (0 < g) by (unfold g; pose proof (bpow_gt_0 radix2 (-46)); lra). split; [lra|]. split; [lra|].
  apply (proj2 HS); [lra|]. unfold remaining_turn. rewrite !scaled_neg. exact P3.
Qed.

Lemma vscale_norm y Y : 0 <= y <= 1 -> vnorm (vscale y Y) <= vnorm Y.
Proof. intros H. rewrite vnorm_scale, Rabs_pos_eq by lra. pose proof (vnorm_pos Y). nra. Qed.

Lemma segment_accuracy : qnear (se3_segment_rotation K ta tb ka kb t)
  (se3_segment_rotation K' (B2R ta) (B2R tb) (real_coef ka) (real_coef kb) (B2R t)) ((18 + 9 * L) * g).
Proof.
  pose proof u_small as U. pose proof (third_near ta tb Fa Fb HD) as Hth. set (third := ndiv (nsub tb ta) (nofZ 3)) in Hth.
  destruct (exact_w third ka Hth Wa Ba Qa) as [V1 N1], (exact_w third kb Hth Wb Bb Qb) as [V3 N3].
  destruct (exact_log third Hth) as (d & Hd0 & Hd & V2). destruct HS as [N2 _]. destruct (here_alpha ta tb t Fa Fb Ft HD Ht) as [Al Hx].
  fold D x alpha in Al, Hx.
  assert (LD : 0 <= L * d <= 17 * (L * g)) by (split; [nra|replace (17 * (L * g)) with (L * (17 * g)) by ring; now apply Rmult_le_compat_l]).
  assert (M6 : middling 6) by (apply middling_between; lra). assert (M9 : middling 9) by (apply middling_between; lra).
  set (W1 := body_turn (B2R ta) (B2R tb) (real_coef ka)) in *. set (W3 := body_turn (B2R ta) (B2R tb) (real_coef kb)) in *.
  set (W2 := k_log K' (remaining_turn (B2R ta) (B2R tb) (real_coef ka) (real_coef kb))) in *.
  pose proof (weight1_range x Hx) as G1. pose proof (weight2_range x Hx) as G2. pose proof (weight3_range x Hx) as G3.
  pose proof (vnear_scale _ _ _ _ _ 6 (near_weight1 alpha x Al Hx) G1 V1 ltac:(lra) ltac:(lra) M6) as S1.
  pose proof (vnear_scale _ _ _ _ _ 6 (near_weight3 alpha x Al Hx) G3 V3 ltac:(lra) ltac:(lra) M6) as S3.
  pose proof (vnear_scale _ _ _ _ _ 9 (near_weight2 alpha x Al Hx) G2 V2 ltac:(lra) ltac:(lra) M9) as S2.
  pose proof (vscale_norm _ W1 G1) as B1. pose proof (vscale_norm _ W2 G2) as B2. pose proof (vscale_norm _ W3 G3) as B3.
  pose proof (exact_exp _ _ _ S1 ltac:(lra)) as E1. pose proof (exact_exp _ _ _ S2 ltac:(lra)) as E2.
  pose proof (exact_exp _ _ _ S3 ltac:(lra)) as E3.
  pose proof (normalised_near _ _ Qa ltac:(lra)) as Na. pose proof (qnorm_unit _ (normalised_unit _ _ Qa ltac:(lra))) as Ua.
  assert (ee : 0 <= e * e <= e * / 2000) by (split; [nra|apply Rmult_le_compat_l; lra]).
  assert (eu : 0 <= e * u <= / 2000 * u) by (split; [nra|apply Rmult_le_compat_r; lra]).
  assert (uu : 0 <= u * u <= / 1000000 * u) by (split; [nra|apply Rmult_le_compat_r; lra]).
  assert (le : 0 <= e * (L * d) <= e * / 11) by (split; [nra|apply Rmult_le_compat_l; lra]).
  assert (lu : 0 <= u * (L * d) <= u * / 11) by (split; [nra|apply Rmult_le_compat_l; lra]).
  assert (E1' := qnear_weaken _ _ _ (725 / 100 * e + 430 * u) E1 ltac:(lra)).
  assert (E2' := qnear_weaken _ _ _ (15 / 10 * e + / 2 * (L * d) + 315 * u) E2 ltac:(lra)).
  assert (E3' := qnear_weaken _ _ _ (725 / 100 * e + 430 * u) E3 ltac:(lra)).
  destruct (qnear_unit_mul _ _ _ _ _ _ (826 / 100 * e + 463 * u) Na E1' Ua (qexp_norm _)) as [P1 O1]; [lra|lra|lra|].
  destruct (qnear_unit_mul _ _ _ _ _ _ (103 / 10 * e + 840 * u + / 2 * (L * d)) P1 E2' O1 (qexp_norm _)) as [P2 O2]; [lra|lra|lra|].
  destruct (qnear_unit_mul _ _ _ _ _ _ ((18 + 9 * L) * g) P2 E3' O2 (qexp_norm _)) as [P3 _]; [lra|lra| |].
  { replace ((18 + 9 * L) * g) with (18 * g + 9 * (L * g)) by ring. unfold g at 1. rewrite bits7. lra. }
  unfold se3_segment_rotation. rewrite !HK'.
  replace (se3_w2 K' ((B2R tb - B2R ta) / #3)%num (real_coef ka) (real_coef kb)) with W2.
  2:{ unfold W2, se3_w2, remaining_turn. rewrite !HK', !scaled_neg. unfold se3_w1. rewrite !qunrotate_matrix. reflexivity. }
  replace (se3_w1 ((B2R tb - B2R ta) / #3)%num (real_coef ka)) with W1 by (unfold se3_w1; rewrite qunrotate_matrix; reflexivity).
  replace (se3_w1 ((B2R tb - B2R ta) / #3)%num (real_coef kb)) with W3 by (unfold se3_w1; rewrite qunrotate_matrix; reflexivity).
  exact P3.
Qed.
End Accuracy.

(** The orientation computed in double precision is that of the exact curve through the normalised
    knots, up to the error of the knots and of kindr's functions times a factor that depends on how
    well-conditioned the logarithm is where the segments take it; and it is refused at the same times. *)
Theorem C106_orientation : forall (K : kindr b64) (K' : kindr R) (e L : R) (c : se3_curve b64) (t : b64),
  consistent (h_mgr c) -> 0 <= e <= / 2000 -> 0 <= L -> L * (e + bpow radix2 (-46)) <= / 200 ->
  finite_se3 e c -> calm c -> accurate_exp e K -> (forall v, k_exp K' v = qexp v) ->
  stable_turns e L (17 * (e + bpow radix2 (-46))) K K' c -> is_finite t = true ->
  turns_agree ((18 + 9 * L) * (e + bpow radix2 (-46))) (se3_evaluate K c t) (se3_evaluate K' (real_se3 c) (B2R t)).
Proof.
  intros K K' e L c t Hc He HL Hg Hf Hq HK HK' HS Ft. unfold se3_evaluate. rewrite (se3_ends e) by assumption.
  pose proof (bpow_gt_0 radix2 (-46)) as P46.
  destruct (_ && _).
  - destruct (se3_first_knot c) as [(_ & -> & ->)|(t0 & k & Hi & -> & ->)]; [exact I|]. cbn [bind turns_agree].
    destruct (Hf _ _ Hi) as (_ & _ & _ & Q). eapply qnear_weaken; [apply (normalised_near e); [exact Q|lra]|]. nra.
  - rewrite (se3_lookup e) by assumption. destruct (get_coefficients_at (h_mgr c) t) as [[n0 n1]|] eqn:E; [|exact I].
    destruct (se3_found e c Hc Hf t n0 n1 Ft E) as (l & r & Ec & B & I0 & I1).
    destruct (Hf _ _ I0) as (F0 & _ & W0 & Q0), (Hf _ _ I1) as (F1 & _ & W1 & Q1).
    destruct (Hq _ _ _ _ _ _ Ec) as (HD & B0 & B1). cbn [option_map fst snd turns_agree p_rot n_time n_coef real_se3_node].
    apply segment_accuracy; auto. eapply HS, Ec.
Qed.

(** ** Knots, the last one included *)

Lemma real_se3_consistent e c : consistent (h_mgr c) -> finite_se3 e c -> consistent (h_mgr (real_se3 c)).
Proof.
  intros [A B F K P] Hf. split; cbn [nodes real_se3 h_mgr index fresh].
  - assert (Fn : forall n, In n (nodes (h_mgr c)) -> is_finite (n_time n) = true)
      by (intros n Hn; apply (Hf _ (n_coef n)), node_finite, Hn).
    unfold get_times in *. cbn [nodes]. rewrite map_map. cbn [real_se3_node n_time].
    clear - A Fn. induction (nodes (h_mgr c)) as [|n l IH]; cbn [map] in *; [constructor|].
    apply StronglySorted_inv in A as [A1 A2]. constructor; [apply IH; auto; intros x Hx; apply Fn; now right|].
    rewrite Forall_map, Forall_forall in *. intros x Hx. specialize (A2 x Hx). unfold t_lt in *.
    rewrite same_lt; auto; apply Fn; simpl; auto.
  - rewrite map_map. exact B.
  - rewrite Forall_map. exact F.
  - unfold get_keys in *. cbn [nodes]. rewrite map_map. exact K.
  - rewrite map_map. exact P.
Qed.

(** At every knot, the last one included, the computed orientation is the stored rotation, up to the
    sign of the quaternion and the error of C106. *)
Theorem C106_knots : forall (K : kindr b64) (K' : kindr R) (e L : R) (c : se3_curve b64) (t : b64) (k : pose b64 * twist b64),
  consistent (h_mgr c) -> 0 <= e <= / 2000 -> 0 <= L -> L * (e + bpow radix2 (-46)) <= / 200 ->
  finite_se3 e c -> calm c -> accurate_exp e K -> exact_kindr K' ->
  stable_turns e L (17 * (e + bpow radix2 (-46))) K K' c -> In (t, k) (contents (h_mgr c)) ->
  exists p q, se3_evaluate K c t = Ok (Some p) /\ same_rotation q (normalised (p_rot (fst k))) /\
    qnear (p_rot p) q ((18 + 9 * L) * (e + bpow radix2 (-46))).
Proof.
  intros K K' e L c t k Hc He HL Hg Hf Hq HK HK' HS Hi. destruct (Hf _ _ Hi) as (Ft & _ & _ & _).
  pose proof (C106_orientation K K' e L c t Hc He HL Hg Hf Hq HK (proj1 HK') HS Ft) as A.
  destruct (se3_knot_values K' (real_se3 c) (B2R t) (real_coef k) HK') as (q & E & Sr & _).
  - eapply real_se3_consistent; eauto.
  - intros t' k' Hi'. unfold contents in Hi'. cbn [real_se3 h_mgr nodes] in Hi'. rewrite map_map in Hi'.
    apply in_map_iff in Hi' as (n & En & Hn). injection En as <- <-. cbn [real_coef real_pose fst p_rot].
    destruct (Hf _ _ (node_finite c n Hn)) as (_ & _ & _ & Q). apply (normalised_unit e); [exact Q|lra].
  - unfold contents in *. cbn [real_se3 h_mgr nodes]. rewrite map_map. apply in_map_iff in Hi as (n & En & Hn).
    apply in_map_iff. exists n. split; [|exact Hn]. cbn [real_se3_node n_time n_coef]. congruence.
  - rewrite E in A. destruct (se3_evaluate K c t) as [[p|]| | |]; try contradiction. exists p, q. auto.
Qed.

(** ** A kindr that rounds correctly *)

(** Not in the source: the double nearest to a real number. *)
Definition nearest (r : R) : b64 :=
  binary_normalize 53 1024 prec_gt_0_53 prec_lt_emax_53 mode_NE
    (ZnearestE (scaled_mantissa radix2 (SpecFloat.fexp 53 1024) r)) (cexp radix2 (SpecFloat.fexp 53 1024) r) false.

Lemma nearest_val r : Rabs r <= 8 -> val (nearest r) (round radix2 (SpecFloat.fexp 53 1024) ZnearestE r) /\
  Rabs (B2R (nearest r) - r) <= (Rabs r + / 1000) * u.
Proof.
  intros Hr. pose proof (rnd_error r) as Er. pose proof u_small as U.
  assert (T : bpow radix2 (-1075) <= / 1000 * u).
  { pose proof (middling_tiny 1 middling_one). lra. }
  assert (B : Rabs (round radix2 (SpecFloat.fexp 53 1024) ZnearestE r) < bpow radix2 1024).
  { apply Rle_lt_trans with (bpow radix2 4); [|apply bpow_lt; lia]. simpl (bpow radix2 4).
    replace (round radix2 (SpecFloat.fexp 53 1024) ZnearestE r) with ((round radix2 (SpecFloat.fexp 53 1024) ZnearestE r - r) + r) by ring.
    eapply Rle_trans; [apply Rabs_triang|].
    assert (Rabs r * u <= 8 * u) by (apply Rmult_le_compat_r; lra). lra. }
  pose proof (binary_normalize_correct 53 1024 prec_gt_0_53 prec_lt_emax_53 mode_NE
    (ZnearestE (scaled_mantissa radix2 (SpecFloat.fexp 53 1024) r)) (cexp radix2 (SpecFloat.fexp 53 1024) r) false) as P.
  change (F2R (Float radix2 (ZnearestE (scaled_mantissa radix2 (SpecFloat.fexp 53 1024) r)) (cexp radix2 (SpecFloat.fexp 53 1024) r)))
    with (round radix2 (SpecFloat.fexp 53 1024) ZnearestE r) in P. cbn [round_mode] in P.
  rewrite (round_generic radix2 (SpecFloat.fexp 53 1024) ZnearestE (round radix2 (SpecFloat.fexp 53 1024) ZnearestE r)) in P
    by (apply generic_format_round; [apply (fexp_correct 53 1024 eq_refl)|apply valid_rnd_N]).
  rewrite Rlt_bool_true in P by exact B. destruct P as (P1 & P2 & _). fold (nearest r) in P1, P2.
  split; [now split|]. rewrite P1. lra.
Qed.

Definition round_quat (q : quat R) : quat b64 := Quat (nearest (qw q)) (nearest (qx q)) (nearest (qy q)) (nearest (qz q)).

Lemma round_quat_near q : qnorm q = 1 -> qnear (round_quat q) q (bpow radix2 (-50)).
Proof.
  intros N. destruct (qcomponents q) as (A & B & C & D). rewrite N in *. pose proof u_small as U.
  assert (X : forall r, Rabs r <= 1 -> is_finite (nearest r) = true /\ Rabs (B2R (nearest r) - r) <= 2 * u).
  { intros r Hr. destruct (nearest_val r ltac:(lra)) as [[F _] E]. split; [exact F|]. eapply Rle_trans; [exact E|].
    apply Rmult_le_compat_r; lra. }
  destruct (X _ A), (X _ B), (X _ C), (X _ D). split; [repeat split; assumption|].
  apply Rle_trans with (2 * (2 * u)).
  - apply qdist_components; [lra|assumption..].
  - change (-50)%Z with (3 + -53)%Z. rewrite bpow_plus. change (bpow radix2 3) with 8. lra.
Qed.

Definition rounded (log : quat b64 -> vec3 b64) : kindr b64 := Kindr (fun v => round_quat (qexp (real_vec v))) log.

Lemma rounded_accurate log : accurate_exp (bpow radix2 (-50)) (rounded log).
Proof. intros v _ _. apply round_quat_near, qexp_norm. Qed.

Lemma rounded_sound log : (forall q, near_unit (1 / 8) q -> finite_vec (log q) /\ vnorm (real_vec (log q)) <= 8) ->
  sound_kindr (bpow radix2 (-50)) (rounded log).
Proof.
  intros HL. split; [|exact HL]. intros v _ _. destruct (round_quat_near (qexp (real_vec v)) (qexp_norm _)) as [F D].
  split; [exact F|]. pose proof (qdist_norms (real_quat (round_quat (qexp (real_vec v)))) (qexp (real_vec v))) as Q.
  rewrite qexp_norm in Q. cbn [rounded k_exp]. lra.
Qed.

Lemma rounded_zero log : zero_to_one (rounded log).
Proof.
  intros v [_ A] [_ B] [_ C]. cbn [rounded k_exp]. unfold real_vec. rewrite A, B, C, qexp_zero.
  unfold round_quat, qone. cbn [qw qx qy qz]. numR.
  assert (X : forall z, (Z.abs z <= 8)%Z -> val (nearest (IZR z)) (IZR z)).
  { intros z Hz. destruct (nearest_val (IZR z)) as [V _].
    - rewrite <- abs_IZR. now apply IZR_le.
    - rewrite (rnd_val _ _ (val_int z ltac:(lia))) in V. exact V. }
  pose proof (X 1%Z ltac:(lia)). pose proof (X 0%Z ltac:(lia)). auto.
Qed.
