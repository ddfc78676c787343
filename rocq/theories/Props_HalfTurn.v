(** * C105, C106: examples, and what happens at half turns *)

From Coquelicot Require Import Coquelicot.
From Coq Require Import List Bool Arith NArith ZArith Reals Lra Lia Sorting.Sorted.
From Flocq Require Import Core IEEE754.BinarySingleNaN.
From Verif Require Import Base TimeOrder TimeB64 TimeInst KeyGen Manager ManagerSpec ManagerProofs ManagerProofs2
  Num NumB64 Sampling HermiteE3 HermiteSpec HermiteE3Proofs HermiteB64 HermiteErr Props_Binary64 Props_Rounding
  Quat QuatSpec QuatProofs QuatDist QuatErr QuatLog QuatLip HermiteSE3 HermiteSE3Spec HermiteSE3Proofs Props_HermiteSE3 Props_RoundSE3.
Import ListNotations.
Local Open Scope R_scope.

Local Notation u := (bpow radix2 (-53)).

(** ** Curves of two knots *)

Definition two_se3 (ta tb : b64) (ka kb : pose b64 * twist b64) : se3_curve b64 :=
  Hermite (Mgr [Node 0%nat ta 1%N ka; Node 1%nat tb 2%N kb] [(1%N, 0%nat); (2%N, 1%nat)] 2%nat) (Policy 0 4 (dbl 0) (dbl 0)).

Lemma two_se3_consistent (ta tb : b64) ka kb : nltb ta tb = true ->
  consistent (h_mgr (two_se3 ta tb ka kb)) /\ contents (h_mgr (two_se3 ta tb ka kb)) = [(ta, ka); (tb, kb)].
Proof.
  intros Hlt. split; [|reflexivity]. split.
  - unfold get_times. simpl. repeat constructor. exact Hlt.
  - simpl. repeat constructor; simpl; lia.
  - simpl. repeat constructor.
  - unfold get_keys. simpl. repeat constructor; simpl; intuition discriminate.
  - simpl. apply Permutation.Permutation_refl.
Qed.

Lemma dbl_real z : (Z.abs z <= 2 ^ 53)%Z -> B2R (dbl z) = IZR z.
Proof. intros H. apply (val_int z H). Qed.
Lemma dbl_finite z : (Z.abs z <= 2 ^ 53)%Z -> is_finite (dbl z) = true.
Proof. intros H. apply (val_int z H). Qed.

Definition dquat (w x y z : Z) : quat b64 := Quat (dbl w) (dbl x) (dbl y) (dbl z).
Definition dcoef (p l a : vec3 b64) (q : quat b64) : pose b64 * twist b64 := (Pose p q, Twist l a).

Ltac small := let H := fresh in vm_compute; intros H; discriminate H.
Ltac dreal := rewrite ?dbl_real by small.

Lemma one_near e : 0 <= e -> near_unit e (dquat 1 0 0 0).
Proof.
  intros He. split; [vm_compute; intuition|]. unfold real_quat, dquat. cbn [qw qx qy qz]. dreal.
  unfold qnorm. cbn [qw qx qy qz]. replace (sqrt _) with 1 by (symmetry; transitivity (sqrt 1); [f_equal; numR; ring|apply sqrt_1]). rewrite Rminus_diag_eq, Rabs_R0; auto.
Qed.
Lemma half_near e : 0 <= e -> near_unit e (dquat 0 1 0 0).
Proof.
  intros He. split; [vm_compute; intuition|]. unfold real_quat, dquat. cbn [qw qx qy qz]. dreal.
  unfold qnorm. cbn [qw qx qy qz]. replace (sqrt _) with 1 by (symmetry; transitivity (sqrt 1); [f_equal; numR; ring|apply sqrt_1]). rewrite Rminus_diag_eq, Rabs_R0; auto.
Qed.

Lemma one_normal : normalised (dquat 1 0 0 0) = Quat 1 0 0 0.
Proof.
  unfold normalised, real_quat, dquat. cbn [qw qx qy qz]. dreal. unfold qnorm. cbn [qw qx qy qz].
  replace (sqrt _) with 1 by (symmetry; transitivity (sqrt 1); [f_equal; numR; ring|apply sqrt_1]). f_equal; field.
Qed.

Lemma half_normal (q : quat b64) : val (qw q) 0 -> val (qx q) 1 -> val (qy q) 0 -> val (qz q) 0 -> normalised q = Quat 0 1 0 0.
Proof.
  intros [_ A] [_ B] [_ C] [_ D]. unfold normalised, real_quat. rewrite A, B, C, D. unfold qnorm. cbn [qw qx qy qz].
  replace (sqrt _) with 1 by (symmetry; transitivity (sqrt 1); [f_equal; numR; ring|apply sqrt_1]). f_equal; field.
Qed.

(** ** A logarithm that chooses the other axis at half turns *)

Definition round_vec (v : vec3 R) : vec3 b64 := V3 (nearest (vx v)) (nearest (vy v)) (nearest (vz v)).

Lemma round_vec_near v : vnorm v <= 4 -> vnear (round_vec v) v (bpow radix2 (-49)).
Proof.
  intros N. destruct (vcomponents v) as (A & B & C). pose proof u_small as U.
  assert (X : forall r, Rabs r <= vnorm v -> is_finite (nearest r) = true /\ Rabs (B2R (nearest r) - r) <= 5 * u).
  { intros r Hr. destruct (nearest_val r ltac:(lra)) as [[F _] E]. split; [exact F|]. eapply Rle_trans; [exact E|].
    apply Rmult_le_compat_r; lra. }
  destruct (X _ A), (X _ B), (X _ C). split; [repeat split; assumption|].
  apply Rle_trans with (2 * (5 * u)).
  - apply vdist_components; [lra|assumption..].
  - change (-49)%Z with (4 + -53)%Z. rewrite bpow_plus. change (bpow radix2 4) with 16. lra.
Qed.

Definition other_log (q : quat b64) : vec3 b64 :=
  let v := std_log (normalised q) in
  round_vec (if neqb (qw q) (nofZ 0) then HermiteSpec.scaled (-1) v else v).

(** A logarithm to [e]: close to a vector of length at most pi whose exponential is the rotation. *)
Definition accurate_log (e : R) (K : kindr b64) : Prop := forall q, near_unit (1 / 8) q ->
  exists v, same_rotation (qexp v) (normalised q) /\ vnorm v <= PI /\ vnear (k_log K q) v e.

Lemma std_log_bound q : unit_quat q -> vnorm (std_log q) <= PI.
Proof.
  intros Hu. pose proof (imag_norm q Hu) as N. pose proof (vnorm_pos (qimag q)) as P. pose proof PI_RGT_0 as PP.
  unfold std_log. destruct (Req_EM_T (vnorm (qimag q)) 0) as [Z|Z].
  - unfold vnorm. cbn [vx vy vz]. numR. replace (sqrt _) with 0 by (symmetry; transitivity (sqrt 0); [f_equal; ring|apply sqrt_0]). lra.
  - rewrite vnorm_scale. assert (Bw : Rabs (qw q) <= 1) by (apply Rabs_le; nra). pose proof (Rabs_pos (qw q)) as Aw.
    destruct (acos_bound (Rabs (qw q))) as [A1 A2].
    assert (A3 : acos (Rabs (qw q)) <= PI / 2).
    { apply Rnot_lt_le. intros L. pose proof (cos_lt_0 _ L ltac:(lra)) as C. rewrite cos_acos in C by lra. lra. }
    replace (Rabs _ * vnorm (qimag q)) with (2 * acos (Rabs (qw q))); [lra|].
    assert (X : 0 <= 2 * acos (Rabs (qw q)) / vnorm (qimag q)) by (apply Rdiv_le_0_compat; [lra|destruct P as [P|P]; [exact P|congruence]]).
    destruct (Rlt_dec (qw q) 0).
    + replace (_ * -1) with (- (2 * acos (Rabs (qw q)) / vnorm (qimag q))) by ring. rewrite Rabs_Ropp, (Rabs_pos_eq (2 * acos (Rabs (qw q)) / vnorm (qimag q))) by exact X. field; exact Z.
    + rewrite Rmult_1_r, (Rabs_pos_eq (2 * acos (Rabs (qw q)) / vnorm (qimag q))) by exact X. field; exact Z.
Qed.

Lemma other_accurate e : bpow radix2 (-49) <= e -> accurate_log e (rounded other_log).
Proof.
  intros He q Hq. pose proof (normalised_unit _ q Hq ltac:(lra)) as Hu. pose proof (std_log_bound _ Hu) as Hb.
  pose proof (proj2 std_log_exact _ Hu) as Hx. cbn [k_log std_kindr] in Hx. pose proof PI_4 as P4.
  assert (Nn : forall v : vec3 R, vnorm (HermiteSpec.scaled (-1) v) = vnorm v).
  { intros v. unfold vnorm, HermiteSpec.scaled. cbn [vx vy vz]. numR. f_equal. ring. }
  cbn [rounded k_log]. unfold other_log. destruct (neqb (qw q) (nofZ 0)) eqn:E.
  - exists (HermiteSpec.scaled (-1) (std_log (normalised q))). split; [|split; [now rewrite Nn|]].
    2:{ destruct (round_vec_near (HermiteSpec.scaled (-1) (std_log (normalised q)))) as [A B]; [rewrite Nn; lra|]. split; [exact A|lra]. }
    apply (eqb_val _ _ _ (val_int 0 ltac:(small))) in E. destruct E as [_ E].
    rewrite scaled_neg, <- qexp_conj.
    assert (W : qw (normalised q) = 0) by (unfold normalised; cbn [qw]; rewrite E; unfold Rdiv; ring).
    destruct Hx as [-> | ->]; [right|left]; apply quat_ext; cbn [qconj qneg qw qx qy qz]; rewrite ?W; numR; ring.
  - exists (std_log (normalised q)). split; [exact Hx|]. split; [exact Hb|].
    destruct (round_vec_near (std_log (normalised q))) as [A B]; [lra|]. split; [exact A|lra].
Qed.

(** ** Products of small whole numbers are exact *)

Definition ival (q : quat b64) (w x y z : Z) : Prop := val (qw q) (IZR w) /\ val (qx q) (IZR x) /\ val (qy q) (IZR y) /\ val (qz q) (IZR z).

Lemma ival_mul p q a b c d a' b' c' d' : ival p a b c d -> ival q a' b' c' d' ->
  (-1 <= a <= 1)%Z -> (-1 <= b <= 1)%Z -> (-1 <= c <= 1)%Z -> (-1 <= d <= 1)%Z ->
  (-1 <= a' <= 1)%Z -> (-1 <= b' <= 1)%Z -> (-1 <= c' <= 1)%Z -> (-1 <= d' <= 1)%Z ->
  ival (qmul p q) (a * a' - b * b' - c * c' - d * d') (a * b' + b * a' + c * d' - d * c')
    (a * c' - b * d' + c * a' + d * b') (a * d' + b * c' - c * b' + d * a').
Proof.
  intros (P1 & P2 & P3 & P4) (Q1 & Q2 & Q3 & Q4) A B C D A' B' C' D'.
  assert (M : forall x y : Z, (-1 <= x <= 1)%Z -> (-1 <= y <= 1)%Z -> (-1 <= x * y <= 1)%Z) by (intros; nia).
  pose proof (M a a' A A'). pose proof (M b b' B B'). pose proof (M c c' C C'). pose proof (M d d' D D').
  pose proof (M a b' A B'). pose proof (M b a' B A'). pose proof (M c d' C D'). pose proof (M d c' D C').
  pose proof (M a c' A C'). pose proof (M b d' B D'). pose proof (M c a' C A'). pose proof (M d b' D B').
  pose proof (M a d' A D'). pose proof (M b c' B C'). pose proof (M c b' C B'). pose proof (M d a' D A').
  unfold ival, qmul. cbn [qw qx qy qz].
  repeat match goal with |- _ /\ _ => split end;
    repeat (first [apply val_sub_int | apply val_add_int | apply val_mul_int | assumption]); lia.
Qed.

(** ** From no rotation to a half turn in two seconds, at rest at both ends *)

Definition rest_one : pose b64 * twist b64 := dcoef (dvec 0 0 0) (dvec 0 0 0) (dvec 0 0 0) (dquat 1 0 0 0).
Definition rest_half : pose b64 * twist b64 := dcoef (dvec 7 (-20) 2) (dvec 0 0 0) (dvec 0 0 0) (dquat 0 1 0 0).
Definition half_turn : se3_curve b64 := two_se3 (dbl 0) (dbl 2) rest_one rest_half.

Lemma half_turn_contents : consistent (h_mgr half_turn) /\ contents (h_mgr half_turn) = [(dbl 0, rest_one); (dbl 2, rest_half)].
Proof. apply two_se3_consistent. reflexivity. Qed.

Lemma half_turn_finite e : 0 <= e -> finite_se3 e half_turn.
Proof.
  intros He t k. rewrite (proj2 half_turn_contents). intros [[= <- <-]|[[= <- <-]|[]]].
  - split; [reflexivity|]. split; [vm_compute; intuition|]. split; [vm_compute; intuition|]. now apply one_near.
  - split; [reflexivity|]. split; [vm_compute; intuition|]. split; [vm_compute; intuition|]. now apply half_near.
Qed.

Lemma zero_dvec : real_vec (dvec 0 0 0) = V3 0 0 0.
Proof. unfold real_vec, dvec. cbn [vx vy vz]. now rewrite !dbl_real by small. Qed.
Lemma zero_length : vnorm (V3 0 0 0) = 0.
Proof. unfold vnorm. cbn [vx vy vz]. numR. transitivity (sqrt 0); [f_equal; ring|apply sqrt_0]. Qed.

Lemma half_turn_calm : calm half_turn.
Proof.
  intros l ta ka tb kb r E. rewrite (proj2 half_turn_contents) in E. apply two_split in E as [E1 E2].
  assert (ta = dbl 0) as -> by congruence. assert (tb = dbl 2) as -> by congruence.
  assert (ka = rest_one) as -> by congruence. assert (kb = rest_half) as -> by congruence.
  rewrite !dbl_real by small. cbn [rest_one rest_half dcoef snd t_ang]. rewrite zero_dvec, zero_length.
  split; [apply moderate_small; lra|]. lra.
Qed.

Lemma at_rest_turn ta tb a b : t_ang (snd a) = V3 0 0 0 -> t_ang (snd b) = V3 0 0 0 ->
  remaining_turn ta tb a b = qmul (qconj (p_rot (fst a))) (p_rot (fst b)).
Proof.
  intros A B. unfold remaining_turn, body_turn. rewrite A, B.
  assert (Z : forall s, HermiteSpec.scaled s (V3 0 0 0) = V3 0 0 0) by (intros s; unfold HermiteSpec.scaled; cbn [vx vy vz]; now rewrite !Rmult_0_r).
  assert (M : forall q, rotation_matrix q (V3 0 0 0) = V3 0 0 0) by (intros q; unfold rotation_matrix; cbn; f_equal; ring).
  rewrite Z, !M, Z, qexp_zero. destruct (p_rot (fst a)) as [a0 a1 a2 a3], (p_rot (fst b)) as [b0 b1 b2 b3].
  apply quat_ext; cbn; numR; ring.
Qed.

Lemma half_turn_remaining ta tb : remaining_turn ta tb (real_coef rest_one) (real_coef rest_half) = Quat 0 1 0 0.
Proof.
  rewrite at_rest_turn by (cbn [real_coef snd real_twist t_ang rest_one rest_half dcoef]; apply zero_dvec).
  cbn [real_coef fst real_pose p_rot rest_one rest_half dcoef]. rewrite one_normal.
  rewrite half_normal by (apply (val_int 0); small) || (apply (val_int 1); small).
  apply quat_ext; cbn; numR; ring.
Qed.

Definition other_axis : vec3 R := HermiteSpec.scaled (-1) (std_log (Quat 0 1 0 0)).
Definition one_way : kindr b64 := rounded (fun _ => round_vec other_axis).
Definition other_way : kindr R := Kindr qexp (fun _ => other_axis).

Definition third2 : b64 := ndiv (nsub (dbl 2) (dbl 0)) (nofZ 3).
Lemma no_turn_one : each (fun x => neqb x (nofZ 0 : b64) = true) (vneg (se3_w1 third2 rest_one)).
Proof. split; [|split]; vm_compute; reflexivity. Qed.
Lemma no_turn_half : each (fun x => neqb x (nofZ 0 : b64) = true) (vneg (se3_w1 third2 rest_half)).
Proof. split; [|split]; vm_compute; reflexivity. Qed.

Lemma half_turn_log : se3_w2 (rounded other_log) third2 rest_one rest_half = se3_w2 one_way third2 rest_one rest_half.
Proof.
  unfold se3_w2. cbn [k_log k_exp rounded one_way].
  assert (One : forall v : vec3 b64, each (fun x => neqb x (nofZ 0) = true) v -> ival (round_quat (qexp (real_vec v))) 1 0 0 0).
  { intros v (A & B & C). pose proof (val_int 0 ltac:(small)) as I0.
    apply (rounded_zero other_log v); eapply eqb_val; eassumption. }
  assert (B1 : ival (qconj (p_rot (fst rest_one))) 1 0 0 0).
  { cbn [qconj rest_one dcoef fst p_rot dquat qw qx qy qz].
    split; [apply (val_int 1); small|]. rewrite <- Ropp_0. repeat split; apply (val_opp _ 0), (val_int 0); small. }
  assert (B2 : ival (p_rot (fst rest_half)) 0 1 0 0).
  { cbn [rest_half dcoef fst p_rot dquat].
    split; [apply (val_int 0); small|]. split; [apply (val_int 1); small|]. split; apply (val_int 0); small. }
  set (q := qmul _ _). assert (V : ival q 0 1 0 0).
  { unfold q.
    pose proof (One _ no_turn_one) as O1.
    pose proof (One _ no_turn_half) as O2.
    pose proof (ival_mul _ _ _ _ _ _ _ _ _ _ O1 B1 ltac:(lia) ltac:(lia) ltac:(lia) ltac:(lia) ltac:(lia) ltac:(lia) ltac:(lia) ltac:(lia)) as P1.
    cbn [Z.mul Z.add Z.sub Pos.mul Pos.add Z.opp Z.pos_sub] in P1.
    pose proof (ival_mul _ _ _ _ _ _ _ _ _ _ P1 B2 ltac:(lia) ltac:(lia) ltac:(lia) ltac:(lia) ltac:(lia) ltac:(lia) ltac:(lia) ltac:(lia)) as P2.
    cbn [Z.mul Z.add Z.sub Pos.mul Pos.add Z.opp Z.pos_sub] in P2.
    exact (ival_mul _ _ _ _ _ _ _ _ _ _ P2 O2 ltac:(lia) ltac:(lia) ltac:(lia) ltac:(lia) ltac:(lia) ltac:(lia) ltac:(lia) ltac:(lia)). }
  clearbody q. destruct V as (V1 & V2 & V3 & V4). unfold other_log.
  rewrite (val_eqb _ _ _ V1 (val_int 0 ltac:(small))), half_normal by assumption. reflexivity.
Qed.

Lemma half_turn_segment K (L : k_exp K = k_exp one_way) :
  se3_w2 K third2 rest_one rest_half = se3_w2 one_way third2 rest_one rest_half ->
  se3_evaluate K half_turn (dbl 1) = se3_evaluate one_way half_turn (dbl 1).
Proof.
  intros E. unfold se3_evaluate.
  assert (G : neqb (max_time (h_mgr half_turn)) (dbl 1) && neqb (min_time (h_mgr half_turn)) (dbl 1) = false) by reflexivity.
  rewrite G. clear G.
  assert (G : get_coefficients_at (h_mgr half_turn) (dbl 1) = Some (Node 0%nat (dbl 0) 1%N rest_one, Node 1%nat (dbl 2) 2%N rest_half)) by reflexivity.
  rewrite G. cbn [n_time n_coef]. unfold se3_segment_rotation. cbv zeta. fold third2. rewrite E, L. reflexivity.
Qed.

Lemma half_turn_stable : stable_turns (bpow radix2 (-49)) 0 (17 * (bpow radix2 (-49) + bpow radix2 (-46))) one_way other_way half_turn.
Proof.
  intros l ta ka tb kb r E. rewrite (proj2 half_turn_contents) in E. apply two_split in E as [E1 E2].
  assert (ka = rest_one) as -> by congruence. assert (kb = rest_half) as -> by congruence.
  rewrite half_turn_remaining. assert (B : vnorm other_axis <= 4).
  { unfold other_axis. replace (vnorm (HermiteSpec.scaled (-1) (std_log (Quat 0 1 0 0)))) with (vnorm (std_log (Quat 0 1 0 0)))
      by (unfold vnorm, HermiteSpec.scaled; cbn [vx vy vz]; numR; f_equal; ring).
    pose proof (std_log_bound (Quat 0 1 0 0)) as X. pose proof PI_4. 
    assert (unit_quat (Quat 0 1 0 0)) by (unfold unit_quat; cbn; numR; ring). specialize (X H0). lra. }
  split; [cbn [other_way k_log]; lra|]. intros q' d _ _. cbn [one_way rounded other_way k_log].
  destruct (round_vec_near _ B) as [F D]. split; [exact F|lra].
Qed.

(** The exact curve half way: half of the logarithm. *)
Lemma half_turn_exact (K' : kindr R) : (forall v, k_exp K' v = qexp v) ->
  exists p, se3_evaluate K' (real_se3 half_turn) (B2R (dbl 1)) = Ok (Some p) /\
    p_rot p = qexp (vscale (/ 2) (k_log K' (Quat 0 1 0 0))).
Proof.
  intros HK. pose proof (half_turn_finite 0 ltac:(lra)) as Hf. assert (F1 : is_finite (dbl 1) = true) by reflexivity.
  unfold se3_evaluate. rewrite (se3_ends 0) by assumption.
  assert (G : neqb (max_time (h_mgr half_turn)) (dbl 1) && neqb (min_time (h_mgr half_turn)) (dbl 1) = false) by reflexivity.
  rewrite G. clear G. rewrite (se3_lookup 0) by assumption.
  assert (G : get_coefficients_at (h_mgr half_turn) (dbl 1) = Some (Node 0%nat (dbl 0) 1%N rest_one, Node 1%nat (dbl 2) 2%N rest_half)) by reflexivity.
  rewrite G. cbn [option_map fst snd real_se3_node n_time n_coef]. eexists. split; [reflexivity|]. cbn [p_rot].
  rewrite !dbl_real by small. unfold se3_segment_rotation. cbv zeta.
  assert (W : forall s k, t_ang (snd k) = V3 0 0 0 -> se3_w1 s k = V3 0 0 0).
  { intros s k Hk. unfold se3_w1. rewrite Hk, qunrotate_matrix. unfold rotation_matrix. cbn. f_equal; ring. }
  assert (A1 : t_ang (snd (real_coef rest_one)) = V3 0 0 0) by (cbn [real_coef snd real_twist t_ang rest_one dcoef]; apply zero_dvec).
  assert (A2 : t_ang (snd (real_coef rest_half)) = V3 0 0 0) by (cbn [real_coef snd real_twist t_ang rest_half dcoef]; apply zero_dvec).
  assert (E2 : forall s, se3_w2 K' s (real_coef rest_one) (real_coef rest_half) = k_log K' (Quat 0 1 0 0)).
  { intros s. unfold se3_w2. f_equal. rewrite !W by assumption. rewrite <- (half_turn_remaining 0 0), at_rest_turn by assumption.
    rewrite HK. replace (vneg (V3 0 0 0)) with (V3 0 0 0) by (unfold vneg; cbn [vx vy vz]; numR; now rewrite Ropp_0). rewrite qexp_zero.
    destruct (p_rot (fst (real_coef rest_one))) as [a0 a1 a2 a3], (p_rot (fst (real_coef rest_half))) as [b0 b1 b2 b3].
    apply quat_ext; cbn; numR; ring. }
  rewrite E2, !W, !HK by assumption.
  assert (Z : forall s : R, vscale s (V3 0 0 0) = V3 0 0 0) by (intros s; unfold vscale; cbn [vx vy vz]; numR; now rewrite !Rmult_0_r).
  rewrite !Z, qexp_zero. cbn [real_coef fst real_pose p_rot rest_one dcoef]. rewrite one_normal.
  numR. replace (_ * _ + _) with (/ 2) by field.
  destruct (qexp _) as [b0 b1 b2 b3]. apply quat_ext; cbn; numR; ring.
Qed.

Lemma std_log_half : std_log (Quat 0 1 0 0) = V3 PI 0 0.
Proof.
  unfold std_log. change (qimag (Quat 0 1 0 0)) with (V3 1 0 0). cbn [qw]. replace (vnorm (V3 1 0 0)) with 1.
  2:{ symmetry. unfold vnorm. cbn [vx vy vz]. numR. transitivity (sqrt 1); [f_equal; ring|apply sqrt_1]. }
  destruct (Req_EM_T 1 0) as [X|_]; [lra|]. destruct (Rlt_dec 0 0) as [X|_]; [lra|].
  rewrite Rabs_R0, acos_0. unfold vscale. cbn [vx vy vz]. numR. f_equal; field.
Qed.

Lemma quarter_exp s : s = 1 \/ s = -1 -> qexp (V3 (/ 2 * (s * PI)) 0 0) = Quat (1 / sqrt 2) (s * (1 / sqrt 2)) 0 0.
Proof.
  intros Hs. pose proof PI_RGT_0 as P. unfold qexp.
  assert (N : vnorm (V3 (/ 2 * (s * PI)) 0 0) = PI / 2).
  { unfold vnorm. cbn [vx vy vz]. numR. transitivity (sqrt ((PI / 2) * (PI / 2))).
    - f_equal. destruct Hs as [-> | ->]; field.
    - apply sqrt_square. lra. }
  rewrite N. destruct (Req_EM_T (PI / 2) 0) as [X|_]; [lra|]. replace (PI / 2 / 2) with (PI / 4) by field.
  rewrite cos_PI4, sin_PI4. assert (S : sqrt 2 <> 0) by (apply Rgt_not_eq, sqrt_lt_R0; lra).
  cbn [vx vy vz]. apply quat_ext; cbn [qw qx qy qz]; [reflexivity| |ring|ring]. destruct Hs as [-> | ->]; field; split; lra.
Qed.

(** At half turns two accurate logarithms may differ, and with them the orientation between the
    knots, by a quarter turn either way: here they are about 1.4 apart as quaternions, whichever
    sign is chosen. *)
Theorem C106_half_turn_refuted : exists (K : kindr b64) (c : se3_curve b64) (t : b64) (p : pose b64) (p' : pose R),
  consistent (h_mgr c) /\ finite_se3 (bpow radix2 (-49)) c /\ calm c /\
  accurate_exp (bpow radix2 (-49)) K /\ accurate_log (bpow radix2 (-49)) K /\ is_finite t = true /\
  exact_kindr std_kindr /\ se3_evaluate K c t = Ok (Some p) /\
  se3_evaluate std_kindr (real_se3 c) (B2R t) = Ok (Some p') /\
  forall q, same_rotation q (p_rot p') -> 1 <= qdist (real_quat (p_rot p)) q.
Proof.
  pose proof (bpow_gt_0 radix2 (-49)) as P49.
  assert (B49 : bpow radix2 (-49) = 16 * u) by (change (-49)%Z with (4 + -53)%Z; rewrite bpow_plus; reflexivity).
  pose proof u_small as U. pose proof bits7 as B46.
  assert (Ac : forall log, accurate_exp (bpow radix2 (-49)) (rounded log)).
  { intros log v F V. eapply qnear_weaken; [apply (rounded_accurate log v F V)|apply bpow_le; lia]. }
  pose proof (half_turn_finite (bpow radix2 (-49)) ltac:(lra)) as Hf.
  assert (A : turns_agree ((18 + 9 * 0) * (bpow radix2 (-49) + bpow radix2 (-46))) (se3_evaluate one_way half_turn (dbl 1))
    (se3_evaluate other_way (real_se3 half_turn) (B2R (dbl 1)))).
  { apply (C106_orientation one_way other_way); auto; try lra.
    - apply half_turn_contents.
    - apply half_turn_calm.
    - apply Ac.
    - apply half_turn_stable. }
  rewrite <- (half_turn_segment (rounded other_log) eq_refl half_turn_log) in A.
  destruct (half_turn_exact other_way ltac:(reflexivity)) as (p1 & E1 & R1).
  destruct (half_turn_exact std_kindr ltac:(reflexivity)) as (p' & E' & R').
  rewrite E1 in A. destruct (se3_evaluate (rounded other_log) half_turn (dbl 1)) as [[p|]| | |] eqn:E; try contradiction.
  exists (rounded other_log), half_turn, (dbl 1), p, p'.
  split; [apply half_turn_contents|]. split; [exact Hf|]. split; [apply half_turn_calm|]. split; [apply Ac|].
  split; [apply other_accurate; lra|]. split; [reflexivity|]. split; [apply std_log_exact|]. split; [exact E|]. split; [exact E'|].
  cbn [turns_agree] in A. destruct A as [_ A]. cbn [other_way std_kindr k_log] in R1, R'. unfold other_axis in R1.
  rewrite std_log_half in R1, R'. unfold HermiteSpec.scaled, vscale in R1, R'. cbn [vx vy vz] in R1, R'.
  assert (R1' : p_rot p1 = Quat (1 / sqrt 2) (-1 * (1 / sqrt 2)) 0 0).
  { rewrite R1, <- (quarter_exp (-1)) by auto. f_equal. numR. f_equal; ring. }
  assert (R2' : p_rot p' = Quat (1 / sqrt 2) (1 * (1 / sqrt 2)) 0 0).
  { rewrite R', <- (quarter_exp 1) by auto. f_equal. numR. f_equal; ring. }
  set (h := 1 / sqrt 2) in *. 
  assert (H2 : 2 * h * h = 1).
  { unfold h. assert (S : sqrt 2 <> 0) by (apply Rgt_not_eq, sqrt_lt_R0; lra). pose proof (sqrt_sqrt 2 ltac:(lra)) as Q.
    replace (2 * (1 / sqrt 2) * (1 / sqrt 2)) with (2 / (sqrt 2 * sqrt 2)) by (field; exact S). rewrite Q. field. }
  intros q Hq. assert (Far : 14 / 10 <= qdist (p_rot p1) q).
  { apply le_by_squares; [apply qnorm_pos|]. unfold qdist. rewrite qnorm_sqr.
    destruct Hq as [-> | ->]; rewrite R1', R2'; cbn [qminus qneg qw qx qy qz]; numR; nra. }
  pose proof (qdist_triangle (p_rot p1) (real_quat (p_rot p)) q) as T. rewrite (qdist_sym (p_rot p1) (real_quat (p_rot p))) in T. lra.
Qed.

(** ** Away from half turns *)

(** An exact logarithm that takes the short way round. *)
Definition shortest (K : kindr R) : Prop := forall q, unit_quat q -> vnorm (k_log K q) <= PI.

(** Along no segment is the turn that remains between the knots within [m] of a half turn. *)
Definition clear_of_half_turns (m : R) (c : se3_curve b64) : Prop :=
  forall l ta ka tb kb r, contents (h_mgr c) = l ++ (ta, ka) :: (tb, kb) :: r ->
  m < Rabs (qw (remaining_turn (B2R ta) (B2R tb) (real_coef ka) (real_coef kb))).

(** There is only one way short of a half turn. *)
Lemma only_log v r : same_rotation (qexp v) r -> vnorm v <= PI -> qw r <> 0 -> v = std_log r.
Proof.
  intros Hs Hv Hw. destruct Hv as [Hv|Hv].
  - pose proof (std_log_principal v Hv) as P. cbn [k_log std_kindr] in P. rewrite <- P.
    destruct Hs as [-> | ->]; [reflexivity|]. now apply std_log_neg.
  - exfalso. apply Hw. assert (Z : qw (qexp v) = 0) by (unfold qexp; cbn [qw]; rewrite Hv; apply cos_PI2).
    destruct Hs as [E|E]; rewrite E in Z; [exact Z|]. cbn [qneg qw] in Z. numR. lra.
Qed.

Lemma principal_stable K K' e g q : 0 <= e -> 0 <= g <= / 1600 -> accurate_log e K -> exact_kindr K' -> shortest K' ->
  unit_quat q -> 34 * g < Rabs (qw q) -> stable_log e 8 (17 * g) K K' q.
Proof.
  intros He Hg HK HK' HS Hu Hq. pose proof PI_4 as P4. split; [pose proof (HS q Hu); lra|].
  intros q' d Hd Hn. assert (D0 : 0 <= d) by (destruct Hn as [_ Hn]; pose proof (qdist_pos (real_quat q') q); lra).
  assert (Nu : near_unit d q').
  { destruct Hn as [F D]. split; [exact F|]. pose proof (qdist_norms (real_quat q') q) as X. rewrite (qnorm_unit q Hu) in X. lra. }
  pose proof (normalised_unit _ _ Nu ltac:(lra)) as Un. destruct (normalised_near _ _ Nu ltac:(lra)) as [_ Nn].
  assert (Dn : qdist (normalised q') q <= 2 * d).
  { pose proof (qdist_triangle (normalised q') (real_quat q') q) as T. rewrite (qdist_sym (normalised q') (real_quat q')) in T. destruct Hn. lra. }
  assert (Q0 : qw q <> 0) by (intros Z; rewrite Z, Rabs_R0 in Hq; lra).
  assert (Qn : qw (normalised q') <> 0).
  { pose proof (proj1 (qcomponents (qminus (normalised q') q))) as C. change (qnorm (qminus (normalised q') q)) with (qdist (normalised q') q) in C.
    cbn [qminus qw] in C. intros Z. rewrite Z, Rminus_0_l, Rabs_Ropp in C. lra. }
  assert (N8 : near_unit (1 / 8) q') by (apply (near_unit_weaken d); [exact Nu|lra]).
  destruct (HK q' N8) as (v & Sv & Lv & Fv & Dv).
  rewrite (only_log v _ Sv Lv Qn) in Dv. rewrite (only_log (k_log K' q) q (proj2 HK' q Hu) (HS q Hu) Q0).
  split; [exact Fv|]. pose proof (std_log_lipschitz (normalised q') q Un Hu ltac:(lra)) as Lp.
  pose proof (vdist_triangle (real_vec (k_log K q')) (std_log (normalised q')) (std_log q)). lra.
Qed.

Lemma remaining_unit e c l ta ka tb kb r : finite_se3 e c -> e < 1 -> contents (h_mgr c) = l ++ (ta, ka) :: (tb, kb) :: r ->
  unit_quat (remaining_turn (B2R ta) (B2R tb) (real_coef ka) (real_coef kb)).
Proof.
  intros Hf He E. destruct (Hf ta ka) as (_ & _ & _ & Qa); [rewrite E, in_app_iff; simpl; auto|].
  destruct (Hf tb kb) as (_ & _ & _ & Qb); [rewrite E, in_app_iff; simpl; auto|].
  pose proof (normalised_unit _ _ Qa He) as Ua. pose proof (normalised_unit _ _ Qb He) as Ub.
  unfold remaining_turn. cbn [real_coef fst real_pose p_rot]. repeat apply unit_mul; auto using qexp_unit, unit_conj.
Qed.

(** With an exponential and a principal logarithm accurate to [e], and away from half turns, the
    orientation differs from that of the exact curve by at most 90 (e + 2^-46). *)
Theorem C106_principal : forall (K : kindr b64) (K' : kindr R) (e : R) (c : se3_curve b64) (t : b64),
  consistent (h_mgr c) -> 0 <= e <= / 2000 -> finite_se3 e c -> calm c ->
  accurate_exp e K -> accurate_log e K -> exact_kindr K' -> shortest K' ->
  clear_of_half_turns (34 * (e + bpow radix2 (-46))) c -> is_finite t = true ->
  turns_agree (90 * (e + bpow radix2 (-46))) (se3_evaluate K c t) (se3_evaluate K' (real_se3 c) (B2R t)).
Proof.
  intros K K' e c t Hc He Hf Hq HE HL HK' HS HC Ft. pose proof bits7 as B. pose proof u_small as U.
  replace (90 * (e + bpow radix2 (-46))) with ((18 + 9 * 8) * (e + bpow radix2 (-46))) by ring.
  apply C106_orientation; auto; try lra; [apply HK'|].
  intros l ta ka tb kb r E. apply principal_stable; auto; try lra.
  - eapply remaining_unit; eauto; lra.
  - now apply (HC l ta ka tb kb r).
Qed.

(** ** Examples *)

Definition still : se3_curve b64 := two_se3 (dbl 0) (dbl 2) rest_one (dcoef (dvec 7 (-20) 2) (dvec 1 2 3) (dvec 0 0 0) (dquat 1 0 0 0)).

Lemma still_contents : consistent (h_mgr still) /\
  contents (h_mgr still) = [(dbl 0, rest_one); (dbl 2, dcoef (dvec 7 (-20) 2) (dvec 1 2 3) (dvec 0 0 0) (dquat 1 0 0 0))].
Proof. apply two_se3_consistent. reflexivity. Qed.

Lemma still_finite e : 0 <= e -> finite_se3 e still.
Proof.
  intros He t k. rewrite (proj2 still_contents). intros [[= <- <-]|[[= <- <-]|[]]].
  - split; [reflexivity|]. split; [vm_compute; intuition|]. split; [vm_compute; intuition|]. now apply one_near.
  - split; [reflexivity|]. split; [vm_compute; intuition|]. split; [vm_compute; intuition|]. now apply one_near.
Qed.

Lemma still_calm : calm still.
Proof.
  intros l ta ka tb kb r E. rewrite (proj2 still_contents) in E. apply two_split in E as [E1 E2].
  apply pair_equal_spec in E1 as [-> ->]. apply pair_equal_spec in E2 as [-> ->].
  rewrite !dbl_real by small. cbn [rest_one dcoef snd t_ang]. rewrite zero_dvec, zero_length.
  split; [apply moderate_small; lra|]. lra.
Qed.

Lemma still_clear m : m < 1 -> clear_of_half_turns m still.
Proof.
  intros Hm l ta ka tb kb r E. rewrite (proj2 still_contents) in E. apply two_split in E as [E1 E2].
  apply pair_equal_spec in E1 as [-> ->]. apply pair_equal_spec in E2 as [-> ->].
  rewrite at_rest_turn by (cbn [real_coef snd real_twist t_ang rest_one dcoef]; apply zero_dvec).
  cbn [real_coef fst real_pose p_rot rest_one dcoef]. rewrite one_normal. unfold qmul, qconj. cbn [qw qx qy qz]. numR.
  replace (1 * 1 - - 0 * 0 - - 0 * 0 - - 0 * 0) with 1 by ring. rewrite Rabs_R1. exact Hm.
Qed.

Lemma std_shortest : shortest std_kindr.
Proof. intros q Hq. now apply std_log_bound. Qed.

Lemma other_bounded q : near_unit (1 / 8) q -> finite_vec (other_log q) /\ vnorm (real_vec (other_log q)) <= 8.
Proof.
  intros Hq. pose proof (bpow_gt_0 radix2 (-49)) as P. destruct (other_accurate _ (Rle_refl _) q Hq) as (v & _ & V & F & D).
  split; [exact F|]. cbn [rounded k_log] in D. pose proof (vnorm_vdist (real_vec (other_log q)) v) as N. pose proof PI_4.
  assert (bpow radix2 (-49) <= bpow radix2 0) by (apply bpow_le; lia). simpl (bpow radix2 0) in *. lra.
Qed.

(** The hypotheses of the theorems hold for a correctly rounding exponential and logarithm and a
    curve from time 0 to 2. *)
Example C105_example : exists (K : kindr b64) (e : R) (c : se3_curve b64) (t : b64) (k : pose b64 * twist b64),
  consistent (h_mgr c) /\ 0 <= e <= / 64 /\ finite_se3 e c /\ calm c /\ sound_kindr e K /\ zero_to_one K /\
  In (t, k) (contents (h_mgr c)) /\ tlt t (max_time (h_mgr c)) = true /\ is_finite t = true /\ tame 20 2 (translation c).
Proof.
  exists (rounded other_log), (bpow radix2 (-50)), half_turn, (dbl 0), rest_one. pose proof (bpow_gt_0 radix2 (-50)) as P.
  split; [apply half_turn_contents|]. split; [split; [lra|]|].
  { apply Rle_trans with (bpow radix2 (-6)); [apply bpow_le; lia|]. simpl. lra. }
  split; [apply half_turn_finite; lra|]. split; [apply half_turn_calm|].
  split; [apply rounded_sound, other_bounded|]. split; [apply rounded_zero|].
  split; [rewrite (proj2 half_turn_contents); now left|]. split; [reflexivity|]. split; [reflexivity|].
  assert (Ec : contents (translation half_turn) = [(dbl 0, e3_knot rest_one); (dbl 2, e3_knot rest_half)]) by reflexivity.
  split; [apply moderate_small; lra|apply moderate_small; lra|..].
  - intros t k Hi. rewrite Ec in Hi. destruct Hi as [Hi|[Hi|[]]]; injection Hi as <- <-;
      apply dvec_at_most; try small; unfold Rabs; destruct Rcase_abs; lra.
  - intros l ta ka tb kb r E. rewrite Ec in E. apply two_split in E as [E1 E2].
    apply pair_equal_spec in E1 as [-> ->]. apply pair_equal_spec in E2 as [-> ->]. rewrite !dbl_real by small.
    split; [split; [lra|apply Rle_trans with (bpow radix2 1); [simpl; lra|apply bpow_le; lia]]|].
    split; apply dvec_at_most; try small; rewrite Rabs_R0; lra.
Qed.

Example C106_example : exists (K : kindr b64) (K' : kindr R) (e : R) (c : se3_curve b64),
  consistent (h_mgr c) /\ 0 <= e <= / 2000 /\ 8 * (e + bpow radix2 (-46)) <= / 200 /\ finite_se3 e c /\ calm c /\
  accurate_exp e K /\ accurate_log e K /\ exact_kindr K' /\ shortest K' /\
  clear_of_half_turns (34 * (e + bpow radix2 (-46))) c /\ stable_turns e 8 (17 * (e + bpow radix2 (-46))) K K' c.
Proof.
  exists (rounded other_log), std_kindr, (bpow radix2 (-49)), still. pose proof (bpow_gt_0 radix2 (-49)) as P.
  assert (B49 : bpow radix2 (-49) = 16 * u) by (change (-49)%Z with (4 + -53)%Z; rewrite bpow_plus; reflexivity).
  pose proof u_small as U. pose proof bits7 as B46.
  assert (Cl : clear_of_half_turns (34 * (bpow radix2 (-49) + bpow radix2 (-46))) still) by (apply still_clear; lra).
  split; [apply still_contents|]. split; [lra|]. split; [lra|]. split; [apply still_finite; lra|]. split; [apply still_calm|].
  split. { intros v F V. eapply qnear_weaken; [apply (rounded_accurate other_log v F V)|apply bpow_le; lia]. }
  split; [apply other_accurate; lra|]. split; [apply std_log_exact|]. split; [apply std_shortest|]. split; [exact Cl|].
  intros l ta ka tb kb r E. apply principal_stable; try lra.
  - apply other_accurate. lra.
  - apply std_log_exact.
  - apply std_shortest.
  - eapply (remaining_unit (bpow radix2 (-49)) still); eauto; [apply still_finite|]; lra.
  - now apply (Cl l ta ka tb kb r).
Qed.
