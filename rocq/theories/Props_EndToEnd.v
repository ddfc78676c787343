(** * C121: from measurements of a motion, in double precision, back to the motion *)

From Coquelicot Require Import Coquelicot.
From Coq Require Import List Bool Arith NArith ZArith Reals Lra Lia Psatz.
From Flocq Require Import Core IEEE754.BinarySingleNaN.
From Verif Require Import Base TimeOrder TimeB64 TimeInst KeyGen Manager ManagerSpec ManagerProofs ManagerProofs3 Num NumB64 Sampling HermiteE3 HermiteSpec HermiteB64
  HermiteErr HermiteE3Proofs Props_HermiteE3 Props_Hermite2 Quat QuatSpec QuatProofs QuatLog QuatDist HermiteSE3 HermiteSE3Spec HermiteSE3Proofs HermiteSE3Curve
  HermiteSE3Motion Props_HermiteSE3 Props_HalfTurn Props_Speed Props_Sampled Props_Tracking Props_Binary64 Props_Rounding Props_RoundFit Props_RoundSE3Fit Props_Noise.
Import ListNotations.
Local Open Scope R_scope.

(** ** Specification *)

(** The real numbers given to the program as times. *)
Notation real_times := (map (B2R (prec := 53) (emax := 1024))).

(** Measurements [ps], at times [ts], of a motion [f] with errors of at most [e]. *)
Definition measured (e : R) (f : R -> vec3 R) (ts : list b64) (ps : list (vec3 b64)) : Prop :=
  close_points e (map real_vec ps) (map f (real_times ts)).

(** ** From coordinates to distances *)

Lemma vnorm_coords (v : vec3 R) d : Rabs (HermiteE3.vx v) <= d -> Rabs (HermiteE3.vy v) <= d -> Rabs (HermiteE3.vz v) <= d -> vnorm v <= 2 * d.
Proof.
  intros X Y Z. assert (Pd : 0 <= d) by (eapply Rle_trans; [apply Rabs_pos|exact X]).
  assert (S : forall a, Rabs a <= d -> a * a <= d * d).
  { intros a A. replace (a * a) with (Rabs a * Rabs a) by (rewrite <- Rabs_mult; apply Rabs_pos_eq; apply Rle_0_sqr).
    apply Rmult_le_compat; auto; apply Rabs_pos. }
  pose proof (S _ X). pose proof (S _ Y). pose proof (S _ Z). unfold vnorm.
  rewrite <- (sqrt_Rsqr (2 * d)) by lra. apply sqrt_le_1_alt. unfold Rsqr. pose proof (Rmult_le_pos d d Pd Pd). lra.
Qed.

Lemma arrive eps o o' (r x : vec3 R) b : agrees eps o o' -> o' = Ok (Some r) -> vnorm (HermiteE3.vsub r x) <= b ->
  exists p, o = Ok (Some p) /\ finite_vec p /\ vnorm (HermiteE3.vsub (real_vec p) x) <= b + 2 * eps.
Proof.
  intros A -> B. destruct o as [[p|]| | |]; cbn in A; try contradiction. destruct A as (F & X & Y & Z).
  exists p. split; [reflexivity|]. split; [exact F|].
  assert (C : vnorm (HermiteE3.vsub (real_vec p) r) <= 2 * eps) by (destruct r as [rx ry rz]; cbn in X, Y, Z; apply vnorm_coords; cbn; numR; assumption).
  replace (HermiteE3.vsub (real_vec p) x) with (HermiteE3.vadd (HermiteE3.vsub (real_vec p) r) (HermiteE3.vsub r x)).
  - eapply Rle_trans; [apply vnorm_add|]. lra.
  - generalize (real_vec p) r x. intros [? ? ?] [? ? ?] [? ? ?]. unfold HermiteE3.vadd, HermiteE3.vsub. cbn [HermiteE3.vx HermiteE3.vy HermiteE3.vz]. numR. f_equal; ring.
Qed.

Lemma join_points (p q r : vec3 R) a b : vnorm (HermiteE3.vsub p q) <= a -> vnorm (HermiteE3.vsub q r) <= b -> vnorm (HermiteE3.vsub p r) <= b + a.
Proof.
  intros A B. replace (HermiteE3.vsub p r) with (HermiteE3.vadd (HermiteE3.vsub p q) (HermiteE3.vsub q r)).
  - eapply Rle_trans; [apply vnorm_add|]. lra.
  - destruct p as [? ? ?], q as [? ? ?], r as [? ? ?]. unfold HermiteE3.vadd, HermiteE3.vsub. cbn [HermiteE3.vx HermiteE3.vy HermiteE3.vz]. numR. f_equal; ring.
Qed.

Lemma twice_43 x : bpow radix2 (-42) * x = 2 * (bpow radix2 (-43) * x).
Proof. replace (bpow radix2 (-42)) with (2 * bpow radix2 (-43)); [ring|]. change 2 with (bpow radix2 1). rewrite <- bpow_plus. reflexivity. Qed.

Lemma knot_real ts i : at_knot (real_times ts) i = B2R (nth i ts tzero).
Proof.
  unfold at_knot. pose proof (map_nth (B2R (prec := 53) (emax := 1024)) ts tzero i) as N. exact N.
Qed.

(** ** Theorems *)

(** A motion no faster than [V]. *)
Theorem C121_speed : forall debug g (c : e3_curve b64) M D V h e f ts ps d0 d1 out,
  consistent c -> e3_size c = 0%nat -> (2 <= length ts)%nat -> length ts = length ps -> (g + N.of_nat (length ts) < 2 ^ 64)%N ->
  fair M D ts ps d0 d1 -> measured e f ts ps -> gaps h (real_times ts) ->
  let lo := at_knot (real_times ts) 0 in let hi := at_knot (real_times ts) (length ts - 1) in
  changes V f lo hi -> vnorm (real_vec d0) <= V -> vnorm (real_vec d1) <= V ->
  exists g' c' ks, e3_fit_with_derivatives debug g c ts ps d0 d1 out = Ok (g', c', ks) /\
    forall t : b64, is_finite t = true -> lo <= B2R t <= hi ->
      exists p, e3_evaluate c' t = Ok (Some p) /\ finite_vec p /\
        vnorm (HermiteE3.vsub (real_vec p) (f (B2R t))) <= 3 / 4 * V * h + 3 / 2 * e + bpow radix2 (-42) * M.
Proof.
  intros debug g c M D V h e f ts ps d0 d1 out Hc Hz H2 Hl Hg HF He Hh lo hi Hf D0 D1.
  destruct (fair_climbing _ _ _ _ _ _ HF) as [_ Hi].
  destruct (C92_fit_with_derivatives debug g c e3_new M D ts ps d0 d1 out Hc Hz consistent_empty eq_refl Hl Hg HF) as (g' & c' & r' & ks & ks' & E & E' & A).
  destruct (C119_measured debug g e3_new V h e f (real_times ts) (map real_vec ps) (real_vec d0) (real_vec d1) out consistent_empty eq_refl) as (k & r2 & l & E2 & B);
    rewrite ?map_length; auto.
  rewrite E' in E2. assert (r2 = r') by congruence. subst r2.
  exists g', c', ks. split; [exact E|]. intros t Ft Ht. rewrite map_length in B. destruct (B (B2R t) Ht) as (r & Er & Br).
  destruct (A t Ft) as (A0 & _). rewrite twice_43. exact (arrive _ _ _ _ _ _ A0 Er Br).
Qed.

(** A motion whose velocity [v] changes by at most [A] per second; the velocities given at the ends are wrong by at most [w]. *)
Theorem C121_acceleration : forall debug g (c : e3_curve b64) M D A h e w f v ts ps d0 d1 out,
  consistent c -> e3_size c = 0%nat -> (2 <= length ts)%nat -> length ts = length ps -> (g + N.of_nat (length ts) < 2 ^ 64)%N ->
  fair M D ts ps d0 d1 -> measured e f ts ps -> gaps h (real_times ts) ->
  let lo := at_knot (real_times ts) 0 in let hi := at_knot (real_times ts) (length ts - 1) in
  moves f v lo hi -> changes A v lo hi -> vnorm (HermiteE3.vsub (real_vec d0) (v lo)) <= w -> vnorm (HermiteE3.vsub (real_vec d1) (v hi)) <= w ->
  exists g' c' ks, e3_fit_with_derivatives debug g c ts ps d0 d1 out = Ok (g', c', ks) /\
    forall t : b64, is_finite t = true -> lo <= B2R t <= hi ->
      exists p q, e3_evaluate c' t = Ok (Some p) /\ e3_evaluate_derivative c' t 1 = Ok (Some q) /\ finite_vec p /\ finite_vec q /\
        vnorm (HermiteE3.vsub (real_vec p) (f (B2R t))) <= 9 / 32 * A * (h * h) + (e + Rmax (e / 2) (h / 4 * w)) + bpow radix2 (-42) * M /\
        vnorm (HermiteE3.vsub (real_vec q) (v (B2R t))) <= 3 / 4 * A * h + (3 * e / D + Rmax (e / D) w) + bpow radix2 (-42) * (M / D).
Proof.
  intros debug g c M D A h e w f v ts ps d0 d1 out Hc Hz H2 Hl Hg HF He Hh lo hi Hm Ha W0 W1.
  destruct (fair_climbing _ _ _ _ _ _ HF) as [_ Hi]. assert (PD : 0 < D) by (apply moderate_pos, HF).
  assert (L2 : (2 <= length (real_times ts))%nat) by (now rewrite map_length).
  assert (Lp : length (real_times ts) = length (map real_vec ps)) by (now rewrite !map_length).
  assert (Lg : (g + N.of_nat (length (real_times ts)) < 2 ^ 64)%N) by (now rewrite map_length).
  assert (Hd : forall i, (S i < length (real_times ts))%nat -> D <= at_knot (real_times ts) (S i) - at_knot (real_times ts) i).
  { intros i Li. rewrite map_length in Li. rewrite !knot_real. now apply HF. }
  destruct (C92_fit_with_derivatives debug g c e3_new M D ts ps d0 d1 out Hc Hz consistent_empty eq_refl Hl Hg HF) as (g' & c' & r' & ks & ks' & E & E' & B).
  destruct (C119_fit debug debug g g e3_new e3_new e w h (real_times ts) (map real_vec ps) (map f (real_times ts)) (real_vec d0) (real_vec d1) (v lo) (v hi) out out
    consistent_empty eq_refl consistent_empty eq_refl L2 Lp Hi Lg Lg He W0 W1 Hh) as (k1 & k2 & x & y & l1 & l2 & Ex & Ey & P).
  destruct (C119_velocity debug debug g g e3_new e3_new e w D (real_times ts) (map real_vec ps) (map f (real_times ts)) (real_vec d0) (real_vec d1) (v lo) (v hi) out out
    consistent_empty eq_refl consistent_empty eq_refl L2 Lp Hi Lg Lg He W0 W1 PD Hd) as (k3 & k4 & x' & y' & l3 & l4 & Ex' & Ey' & Q).
  assert (x' = x) by congruence. assert (y' = y) by congruence. subst x' y'. rewrite E' in Ex. assert (x = r') by congruence. subst x.
  destruct (C112_fit debug g e3_new A h f v (real_times ts) out consistent_empty eq_refl L2 Hi Lg) as (k5 & y' & l5 & Ey'' & S); rewrite ?map_length; auto.
  assert (Ehi : at_knot (real_times ts) (length (real_times ts) - 1) = hi) by (unfold hi; now rewrite map_length).
  rewrite Ehi in Ey''. fold lo in Ey''. rewrite Ey'' in Ey. assert (y' = y) by congruence. subst y'.
  exists g', c', ks. split; [exact E|]. intros t Ft Ht. rewrite map_length in P, Q, S.
  destruct (P (B2R t) Ht) as (p1 & p2 & Ep1 & Ep2 & Bp). destruct (Q (B2R t) Ht) as (q1 & q2 & Eq1 & Eq2 & Bq).
  destruct (S (B2R t) Ht) as (p3 & q3 & Ep3 & Eq3 & Sp & Sq). assert (p3 = p2) by congruence. assert (q3 = q2) by congruence. subst p3 q3.
  destruct (B t Ft) as (B0 & B1 & _).
  destruct (arrive _ _ _ _ _ _ B0 Ep1 (join_points _ _ _ _ _ Bp Sp)) as (p & Ep & Fp & Np).
  destruct (arrive _ _ _ _ _ _ B1 Eq1 (join_points _ _ _ _ _ Bq Sq)) as (q & Eq & Fq & Nq).
  exists p, q. split; [exact Ep|]. split; [exact Eq|]. split; [exact Fp|]. split; [exact Fq|]. rewrite !twice_43. auto.
Qed.

(** Positions of SE3 curves, whatever the orientations and however the exponential map and the logarithm are rounded. *)
Theorem C121_se3 : forall (K : kindr b64) g (c : se3_curve b64) M D A h e w f v ts vs d0 d1 out,
  (2 <= length ts)%nat -> length ts = length vs -> (g + N.of_nat (length ts) < 2 ^ 64)%N ->
  fair M D ts (map p_pos vs) (t_lin d0) (t_lin d1) -> measured e f ts (map p_pos vs) -> gaps h (real_times ts) ->
  let lo := at_knot (real_times ts) 0 in let hi := at_knot (real_times ts) (length ts - 1) in
  moves f v lo hi -> changes A v lo hi -> vnorm (HermiteE3.vsub (real_vec (t_lin d0)) (v lo)) <= w -> vnorm (HermiteE3.vsub (real_vec (t_lin d1)) (v hi)) <= w ->
  exists g' c' ks, se3_fit_with_derivatives K g c ts vs d0 d1 out = Ok (g', c', ks) /\
    forall t : b64, is_finite t = true -> lo <= B2R t <= hi ->
      exists p, se3_evaluate K c' t = Ok (Some p) /\ finite_vec (p_pos p) /\
        vnorm (HermiteE3.vsub (real_vec (p_pos p)) (f (B2R t))) <= 9 / 32 * A * (h * h) + (e + Rmax (e / 2) (h / 4 * w)) + bpow radix2 (-42) * M.
Proof.
  intros K g c M D A h e w f v ts vs d0 d1 out H2 Hl Hg HF He Hh lo hi Hm Ha W0 W1.
  destruct (fair_climbing _ _ _ _ _ _ HF) as [_ Hi].
  set (one := Quat 1 0 0 0 : quat R).
  set (rs := map (fun p => Pose (real_vec (p_pos p)) one) vs). set (us := map (fun t => Pose (f t) one) (real_times ts)).
  assert (Ers : map p_pos rs = map (fun p => real_vec (p_pos p)) vs) by (unfold rs; now rewrite map_map).
  assert (Eus : map p_pos us = map f (real_times ts)) by (unfold us; now rewrite map_map).
  set (e0 := Twist (real_vec (t_lin d0)) vzero). set (e1 := Twist (real_vec (t_lin d1)) vzero). set (f0 := Twist (v lo) vzero). set (f1 := Twist (v hi) vzero).
  assert (L2 : (2 <= length (real_times ts))%nat) by (now rewrite map_length).
  assert (Lp : length (real_times ts) = length rs) by (unfold rs; now rewrite !map_length).
  assert (Lu : length (real_times ts) = length us) by (unfold us; now rewrite !map_length).
  assert (Lg : (g + N.of_nat (length (real_times ts)) < 2 ^ 64)%N) by (now rewrite map_length).
  assert (Hcl : close_points e (map p_pos rs) (map p_pos us)) by (rewrite Ers, Eus, <- (map_map p_pos real_vec); exact He).
  destruct (C114_fit_with_derivatives K std_kindr g c (se3_new : se3_curve R) M D ts vs d0 d1 rs e0 e1 out Hl Hg Ers eq_refl eq_refl HF) as (g' & c' & r' & ks & ks' & E & E' & B).
  destruct (C119_se3_fit std_kindr std_kindr g g (se3_new : se3_curve R) (se3_new : se3_curve R) e w h (real_times ts) rs us e0 e1 f0 f1 out out L2 Lp Hi Lg Lg Hcl W0 W1 Hh)
    as (k1 & k2 & x & y & l1 & l2 & Ex & Ey & P).
  rewrite E' in Ex. assert (x = r') by congruence. subst x.
  destruct (C112_se3_fit std_kindr g (se3_new : se3_curve R) A h f v (real_times ts) us f0 f1 out Lu L2 Hi Lg Eus) as (k5 & y' & l5 & Ey' & S & _);
    rewrite ?map_length; auto.
  rewrite Ey' in Ey. assert (y' = y) by congruence. subst y'.
  exists g', c', ks. split; [exact E|]. intros t Ft Ht. rewrite map_length in P, S.
  destruct (P (B2R t) Ht) as (p1 & p2 & Ep1 & Ep2 & Bp). destruct (S (B2R t) Ht) as (p3 & q3 & Ep3 & _ & Sp & _). assert (p3 = p2) by congruence. subst p3.
  destruct (B t Ft) as (B0 & _). rewrite Ep1 in B0.
  destruct (arrive _ _ _ _ _ _ B0 eq_refl (join_points _ _ _ _ _ Bp Sp)) as (p & Ep & Fp & Np).
  unfold on_value in Ep. destruct (se3_evaluate K c' t) as [[p'|]| | |]; try discriminate. exists p'. split; [reflexivity|].
  replace (p_pos p') with p by congruence. split; [exact Fp|]. rewrite twice_43. exact Np.
Qed.

(** ** Instances of the hypotheses *)

(** A uniform motion; its first coordinate is measured 1 too small. *)
Definition cruise (t : R) : vec3 R := V3 (t + 1) (2 * t) (3 * t).
Definition cruise_velocity (t : R) : vec3 R := V3 1 2 3.

Example C121_example : let ts := [dbl 0; dbl 1; dbl 3] in let ps := [dvec 0 0 0; dvec 1 2 3; dvec 3 6 9] in
  fair 10 1 ts ps (dvec 1 2 3) (dvec 1 2 3) /\ length ts = length ps /\ (2 <= length ts)%nat /\ (0 + N.of_nat (length ts) < 2 ^ 64)%N /\
  measured 1 cruise ts ps /\ gaps 2 (real_times ts) /\
  (forall lo hi, moves cruise cruise_velocity lo hi /\ changes 0 cruise_velocity lo hi /\ changes 4 cruise lo hi) /\
  (forall t, vnorm (HermiteE3.vsub (real_vec (dvec 1 2 3)) (cruise_velocity t)) <= 0) /\ vnorm (real_vec (dvec 1 2 3)) <= 4.
Proof.
  intros ts ps. assert (V : forall z, (Z.abs z <= 2 ^ 53)%Z -> B2R (dbl z) = IZR z) by (intros; now apply dbl_value).
  assert (VV : forall x y z, (Z.abs x <= 2 ^ 53)%Z -> (Z.abs y <= 2 ^ 53)%Z -> (Z.abs z <= 2 ^ 53)%Z -> real_vec (dvec x y z) = V3 (IZR x) (IZR y) (IZR z)).
  { intros x y z X Y Z. unfold real_vec, dvec. cbn [HermiteE3.vx HermiteE3.vy HermiteE3.vz]. now rewrite !V. }
  assert (N0 : vnorm (V3 0 0 0 : vec3 R) <= 0) by (rewrite vnorm_line, Rabs_R0; lra).
  split; [|split; [reflexivity|split; [cbn; lia|split; [reflexivity|]]]].
  - split.
    + split; [apply Rle_trans with (bpow radix2 0); [apply bpow_le; lia|simpl; lra]|].
      apply Rle_trans with (bpow radix2 10); [simpl; lra|apply bpow_le; lia].
    + apply moderate_small. lra.
    + intros t [<-|[<-|[<-|[]]]]; reflexivity.
    + intros i Li. simpl in Li. assert (K : 2 <= bpow radix2 200) by (apply Rle_trans with (bpow radix2 1); [simpl; lra|apply bpow_le; lia]).
      destruct i as [|[|i]]; [| |lia]; cbn [nth ts]; rewrite !V by (vm_compute; discriminate); lra.
    + intros p [<-|[<-|[<-|[]]]]; (split; [now repeat split|]); apply dvec_at_most; try (vm_compute; discriminate);
        unfold Rabs; destruct Rcase_abs; lra.
    + split; now repeat split.
    + intros _. cbn [nth ts]. rewrite !V by (vm_compute; discriminate).
      apply dvec_at_most; try (vm_compute; discriminate); unfold Rabs; destruct Rcase_abs; lra.
    + intros _. cbn [nth length Nat.sub ts]. rewrite !V by (vm_compute; discriminate).
      apply dvec_at_most; try (vm_compute; discriminate); unfold Rabs; destruct Rcase_abs; lra.
  - split; [|split; [|split; [|split]]].
    + split; [reflexivity|]. intros i Li. cbn [map ts ps length] in *. rewrite !VV, !V by (vm_compute; discriminate). unfold cruise.
      assert (F : forall a b c, vnorm (HermiteE3.vsub (V3 a b c) (V3 (a + 1) b c)) <= 1).
      { intros a b c. replace (HermiteE3.vsub (V3 a b c) (V3 (a + 1) b c)) with (V3 (-1) 0 0)
          by (unfold HermiteE3.vsub; cbn [HermiteE3.vx HermiteE3.vy HermiteE3.vz]; numR; f_equal; ring).
        rewrite vnorm_line, Rabs_left; lra. }
      destruct i as [|[|[|i]]]; [| | |lia]; cbn [nth].
      * replace (2 * 0) with 0 by ring. replace (3 * 0) with 0 by ring. apply F.
      * replace (2 * 1) with 2 by ring. replace (3 * 1) with 3 by ring. apply F.
      * replace (2 * 3) with 6 by ring. replace (3 * 3) with 9 by ring. apply F.
    + intros i Li. cbn [map ts length] in *. rewrite !V by (vm_compute; discriminate). unfold at_knot. destruct i as [|[|i]]; [| |lia]; cbn [nth]; lra.
    + intros lo hi. split; [|split].
      * intros a t _. unfold cruise, cruise_velocity. destruct a; cbn; auto_derive; auto; ring.
      * intros s t _ _. rewrite Rmult_0_l. unfold cruise_velocity, HermiteE3.vsub. cbn [HermiteE3.vx HermiteE3.vy HermiteE3.vz]. numR. now rewrite !Rminus_diag_eq by reflexivity.
      * intros s t _ _. replace (HermiteE3.vsub (cruise s) (cruise t)) with (vscale (s - t) (V3 1 2 3))
          by (unfold cruise, HermiteE3.vsub, vscale; cbn [HermiteE3.vx HermiteE3.vy HermiteE3.vz]; numR; f_equal; ring).
        rewrite vnorm_scale, Rmult_comm. apply Rmult_le_compat_r; [apply Rabs_pos|]. unfold vnorm. cbn [HermiteE3.vx HermiteE3.vy HermiteE3.vz].
        replace 4 with (sqrt (4 * 4)) by (apply sqrt_square; lra). apply sqrt_le_1_alt. lra.
    + intros t. rewrite VV by (vm_compute; discriminate). unfold cruise_velocity, HermiteE3.vsub. cbn [HermiteE3.vx HermiteE3.vy HermiteE3.vz]. numR.
      now rewrite !Rminus_diag_eq by reflexivity.
    + rewrite VV by (vm_compute; discriminate). unfold vnorm. cbn [HermiteE3.vx HermiteE3.vy HermiteE3.vz].
      replace 4 with (sqrt (4 * 4)) by (apply sqrt_square; lra). apply sqrt_le_1_alt. lra.
Qed.

Print Assumptions C121_speed.
Print Assumptions C121_acceleration.
Print Assumptions C121_se3.
