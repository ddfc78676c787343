(** * C119: fitting inaccurate samples *)

From Coquelicot Require Import Coquelicot.
From Coq Require Import List Bool Arith NArith ZArith Reals Lra Lia Psatz.
From Verif Require Import Base TimeOrder TimeInst KeyGen Manager ManagerSpec ManagerProofs ManagerProofs3 Num Sampling HermiteE3 HermiteSpec HermiteE3Proofs
  Props_HermiteE3 Props_Hermite2 Quat QuatSpec QuatProofs QuatLog QuatDist HermiteSE3 HermiteSE3Spec HermiteSE3Proofs HermiteSE3Curve HermiteSE3Motion
  Props_HermiteSE3 Props_HalfTurn Props_Speed Props_Sampled Props_Tracking Props_RoundSE3Fit.
From Verif Require Props_SplineRate.
Import ListNotations.
Local Open Scope R_scope.

(** ** Specification *)

(** As many points in both lists, and corresponding ones no farther apart than [e]. *)
Definition close_points (e : R) (ps qs : list (vec3 R)) : Prop :=
  length ps = length qs /\ forall i, (i < length ps)%nat -> vnorm (HermiteE3.vsub (nth i ps vzero) (nth i qs vzero)) <= e.

(** ** One segment *)

Lemma segment_close ta tb (ka kb la lb : knot R) t e w : ta < tb -> ta <= t <= tb ->
  vnorm (HermiteE3.vsub (k_pos ka) (k_pos la)) <= e -> vnorm (HermiteE3.vsub (k_pos kb) (k_pos lb)) <= e ->
  vnorm (HermiteE3.vsub (k_vel ka) (k_vel la)) <= w -> vnorm (HermiteE3.vsub (k_vel kb) (k_vel lb)) <= w ->
  vnorm (HermiteE3.vsub (e3_segment_value ta tb ka kb t) (e3_segment_value ta tb la lb t)) <= e + (tb - ta) / 4 * w.
Proof.
  intros L Ht Pa Pb Va Vb. assert (Pw : 0 <= w) by (pose proof (vnorm_pos (HermiteE3.vsub (k_vel ka) (k_vel la))); lra).
  set (h := tb - ta) in *. set (x := (t - ta) / h). assert (Ph : 0 < h) by (unfold h; lra).
  assert (X : 0 <= x <= 1) by (unfold x, h; apply fraction_bounds; lra).
  pose proof (bump x X) as B. set (b := 3 * (x * x) - 2 * (x * x * x)) in *.
  assert (G1 : 0 <= x * ((1 - x) * (1 - x)) * h) by (apply Rmult_le_pos; [apply Rmult_le_pos; [|apply Rmult_le_pos]|]; lra).
  assert (G2 : 0 <= x * x * (1 - x) * h) by (apply Rmult_le_pos; [apply Rmult_le_pos; [apply Rmult_le_pos|]|]; lra).
  replace (HermiteE3.vsub (e3_segment_value ta tb ka kb t) (e3_segment_value ta tb la lb t)) with
    (HermiteE3.vadd (HermiteE3.vadd (HermiteE3.vadd (vscale (1 - b) (HermiteE3.vsub (k_pos ka) (k_pos la))) (vscale b (HermiteE3.vsub (k_pos kb) (k_pos lb))))
      (vscale (x * ((1 - x) * (1 - x)) * h) (HermiteE3.vsub (k_vel ka) (k_vel la)))) (vscale (- (x * x * (1 - x) * h)) (HermiteE3.vsub (k_vel kb) (k_vel lb)))).
  - eapply Rle_trans; [apply vnorm_add|]. eapply Rle_trans; [apply Rplus_le_compat_r, vnorm_add|].
    eapply Rle_trans; [apply Rplus_le_compat_r, Rplus_le_compat_r, vnorm_add|].
    rewrite !vnorm_scale, Rabs_Ropp, (Rabs_pos_eq (1 - b)), (Rabs_pos_eq b), (Rabs_pos_eq (x * ((1 - x) * (1 - x)) * h)), (Rabs_pos_eq (x * x * (1 - x) * h)) by lra.
    apply Rle_trans with ((1 - b) * e + b * e + x * ((1 - x) * (1 - x)) * h * w + x * x * (1 - x) * h * w).
    + repeat apply Rplus_le_compat; apply Rmult_le_compat_l; lra.
    + pose proof (Rle_0_sqr (1 - 2 * x)) as SQ. unfold Rsqr in SQ. assert (HW : 0 <= h * w) by (apply Rmult_le_pos; lra).
      pose proof (Rmult_le_pos _ _ HW SQ).
      replace ((1 - b) * e + b * e + x * ((1 - x) * (1 - x)) * h * w + x * x * (1 - x) * h * w) with (e + h / 4 * w - h * w * ((1 - 2 * x) * (1 - 2 * x)) / 4) by field. lra.
  - unfold e3_segment_value. numR. fold h. fold x. unfold b. destruct ka as [[? ? ?] [? ? ?]], kb as [[? ? ?] [? ? ?]], la as [[? ? ?] [? ? ?]], lb as [[? ? ?] [? ? ?]].
    unfold HermiteE3.vadd, HermiteE3.vsub, vscale, vmul. cbn [HermiteE3.vx HermiteE3.vy HermiteE3.vz k_pos k_vel]. numR. f_equal; ring.
Qed.

Lemma segment_velocity_close ta tb (ka kb la lb : knot R) t e w : ta < tb -> ta <= t <= tb ->
  vnorm (HermiteE3.vsub (k_pos ka) (k_pos la)) <= e -> vnorm (HermiteE3.vsub (k_pos kb) (k_pos lb)) <= e ->
  vnorm (HermiteE3.vsub (k_vel ka) (k_vel la)) <= w -> vnorm (HermiteE3.vsub (k_vel kb) (k_vel lb)) <= w ->
  vnorm (HermiteE3.vsub (e3_segment_velocity ta tb ka kb t) (e3_segment_velocity ta tb la lb t)) <= 3 * e / (tb - ta) + w.
Proof.
  intros L Ht Pa Pb Va Vb. assert (Pw : 0 <= w) by (pose proof (vnorm_pos (HermiteE3.vsub (k_vel ka) (k_vel la))); lra).
  assert (Pe : 0 <= e) by (pose proof (vnorm_pos (HermiteE3.vsub (k_pos ka) (k_pos la))); lra).
  set (h := tb - ta) in *. set (x := (t - ta) / h). assert (Ph : 0 < h) by (unfold h; lra).
  assert (X : 0 <= x <= 1) by (unfold x, h; apply fraction_bounds; lra). pose proof (Props_SplineRate.weights x X) as W.
  set (g := 6 * (x * (1 - x)) * (1 / h)). set (g1 := (1 - x) * (1 - 3 * x)) in *. set (g3 := x * (2 - 3 * x)) in *.
  assert (Ih : 0 < 1 / h) by (apply Rdiv_lt_0_compat; lra).
  assert (G : 0 <= g <= 3 / 2 * (1 / h)).
  { pose proof (Rle_0_sqr (1 - 2 * x)) as SQ. unfold Rsqr in SQ. assert (0 <= x * (1 - x)) by (apply Rmult_le_pos; lra).
    split; [apply Rmult_le_pos; lra|]. unfold g. apply Rmult_le_compat_r; lra. }
  replace (HermiteE3.vsub (e3_segment_velocity ta tb ka kb t) (e3_segment_velocity ta tb la lb t)) with
    (HermiteE3.vadd (HermiteE3.vadd (HermiteE3.vadd (vscale (- g) (HermiteE3.vsub (k_pos ka) (k_pos la))) (vscale g (HermiteE3.vsub (k_pos kb) (k_pos lb))))
      (vscale g1 (HermiteE3.vsub (k_vel ka) (k_vel la)))) (vscale (- g3) (HermiteE3.vsub (k_vel kb) (k_vel lb)))).
  - eapply Rle_trans; [apply vnorm_add|]. eapply Rle_trans; [apply Rplus_le_compat_r, vnorm_add|].
    eapply Rle_trans; [apply Rplus_le_compat_r, Rplus_le_compat_r, vnorm_add|].
    rewrite !vnorm_scale, !Rabs_Ropp, (Rabs_pos_eq g) by lra.
    apply Rle_trans with (g * e + g * e + Rabs g1 * w + Rabs g3 * w).
    + repeat apply Rplus_le_compat; apply Rmult_le_compat_l; auto; try lra; apply Rabs_pos.
    + pose proof (Rmult_le_compat_r w _ _ Pw W) as W1. pose proof (Rmult_le_compat_r e _ _ Pe (proj2 G)) as G1.
      replace (3 * e / h) with (2 * (3 / 2 * (1 / h) * e)) by (field; lra). lra.
  - unfold e3_segment_velocity. numR. fold h. fold x. unfold g, g1, g3. destruct ka as [[? ? ?] [? ? ?]], kb as [[? ? ?] [? ? ?]], la as [[? ? ?] [? ? ?]], lb as [[? ? ?] [? ? ?]].
    unfold HermiteE3.vadd, HermiteE3.vsub, vscale, vmul. cbn [HermiteE3.vx HermiteE3.vy HermiteE3.vz k_pos k_vel]. numR. f_equal; ring.
Qed.

(** ** Velocities *)

Lemma velocity_close ts ps qs d0 d1 f0 f1 e w i s : length ts = length ps -> increasing_times ts -> close_points e ps qs ->
  vnorm (HermiteE3.vsub d0 f0) <= w -> vnorm (HermiteE3.vsub d1 f1) <= w -> (i < length ts)%nat ->
  0 < s -> (forall j, (S (S j) < length ts)%nat -> S j = i -> s <= at_knot ts (S (S j)) - at_knot ts j) ->
  vnorm (HermiteE3.vsub (fit_velocity ts ps d0 d1 i) (fit_velocity ts qs f0 f1 i)) <= Rmax (2 * e / s) w.
Proof.
  intros Hl Hi [Lq Hc] D0 D1 Li Ps Hs. unfold fit_velocity. destruct i as [|i]; [eapply Rle_trans; [exact D0|apply Rmax_r]|].
  destruct (Nat.eqb_spec (S (S i)) (length ts)); [eapply Rle_trans; [exact D1|apply Rmax_r]|].
  assert (L3 : (S (S i) < length ts)%nat) by lia. pose proof (Hi i ltac:(lia)) as I1. pose proof (Hi (S i) L3) as I2.
  specialize (Hs i L3 eq_refl). pose proof (Hc i ltac:(lia)) as C1. pose proof (Hc (S (S i)) ltac:(lia)) as C2.
  rewrite !slope_sample. unfold at_knot in *. change (@tzero R _) with 0 in *.
  set (a := nth i ts 0) in *. set (b := nth (S (S i)) ts 0) in *.
  set (p := nth i ps vzero) in *. set (q := nth i qs vzero) in *. set (p' := nth (S (S i)) ps vzero) in *. set (q' := nth (S (S i)) qs vzero) in *.
  assert (Pe : 0 <= e) by (pose proof (vnorm_pos (HermiteE3.vsub p q)); lra).
  eapply Rle_trans; [|apply Rmax_l].
  replace (HermiteE3.vsub (vscale (1 / (b - a)) (HermiteE3.vsub p' p)) (vscale (1 / (b - a)) (HermiteE3.vsub q' q)))
    with (vscale (1 / (b - a)) (HermiteE3.vadd (HermiteE3.vsub p' q') (vscale (-1) (HermiteE3.vsub p q)))).
  - assert (P : 0 < 1 / (b - a)) by (apply Rdiv_lt_0_compat; lra). rewrite vnorm_scale, Rabs_pos_eq by lra.
    apply Rle_trans with (1 / (b - a) * (2 * e)).
    + apply Rmult_le_compat_l; [lra|]. eapply Rle_trans; [apply vnorm_add|]. rewrite vnorm_scale.
      replace (Rabs (-1)) with 1 by (rewrite Rabs_left; lra). lra.
    + unfold Rdiv. rewrite Rmult_1_l, Rmult_comm. apply Rmult_le_compat_l; [lra|]. apply Rinv_le_contravar; lra.
  - generalize p p' q q'. intros [? ? ?] [? ? ?] [? ? ?] [? ? ?]. unfold HermiteE3.vadd, HermiteE3.vsub, vscale.
    cbn [HermiteE3.vx HermiteE3.vy HermiteE3.vz]. numR. f_equal; ring.
Qed.

Lemma quarter_max d e w s : 0 < d -> 0 < s -> d / 4 * Rmax (2 * e / s) w = Rmax (e / 2 * (d / s)) (d / 4 * w).
Proof.
  intros Pd Ps. rewrite <- RmaxRmult by lra. f_equal. field. lra.
Qed.

(** Curves with the knots of two fits. *)
Lemma fitted_close (x y : e3_curve R) ts ps qs d0 d1 f0 f1 e w h r : (2 <= length ts)%nat -> length ts = length ps -> increasing_times ts -> close_points e ps qs ->
  vnorm (HermiteE3.vsub d0 f0) <= w -> vnorm (HermiteE3.vsub d1 f1) <= w -> gaps h ts -> 0 < r ->
  (forall j, (S (S j) < length ts)%nat -> r * (at_knot ts (S j) - at_knot ts j) <= at_knot ts (S (S j)) - at_knot ts j /\
    r * (at_knot ts (S (S j)) - at_knot ts (S j)) <= at_knot ts (S (S j)) - at_knot ts j) ->
  consistent x -> consistent y ->
  contents x = combine ts (map (fit_knot ts ps d0 d1) (seq 0 (length ts))) -> contents y = combine ts (map (fit_knot ts qs f0 f1) (seq 0 (length ts))) ->
  forall t, at_knot ts 0 <= t <= at_knot ts (length ts - 1) ->
    exists p q, e3_evaluate x t = Ok (Some p) /\ e3_evaluate y t = Ok (Some q) /\ vnorm (HermiteE3.vsub p q) <= e + Rmax (e / (2 * r)) (h / 4 * w).
Proof.
  intros H2 Hl Hi Hc D0 D1 Hh Pr Hs Hx Hy Ex Ey t Hrange.
  assert (Pw : 0 <= w) by (pose proof (vnorm_pos (HermiteE3.vsub d0 f0)); lra).
  destruct (times_segment_from ts 0 t Hi ltac:(lia) Hrange) as (k & _ & Lk & Ht). pose proof (Hi k Lk) as Hlt.
  destruct (nth_adjacent _ _ _ _ (fitted_nth x ts _ d0 d1 k Ex ltac:(lia)) (fitted_nth x ts _ d0 d1 (S k) Ex Lk)) as (u & v & Cx & _).
  destruct (nth_adjacent _ _ _ _ (fitted_nth y ts _ f0 f1 k Ey ltac:(lia)) (fitted_nth y ts _ f0 f1 (S k) Ey Lk)) as (u' & v' & Cy & _).
  do 2 eexists. split; [exact (evaluate_segment x u _ _ _ _ v t Hx Cx Ht)|]. split; [exact (evaluate_segment y u' _ _ _ _ v' t Hy Cy Ht)|].
  set (d := at_knot ts (S k) - at_knot ts k). assert (Pd : 0 < d) by (unfold d; lra). assert (Prd : 0 < r * d) by (now apply Rmult_lt_0_compat).
  eapply Rle_trans; [apply (segment_close _ _ _ _ _ _ t e (Rmax (2 * e / (r * d)) w)); auto; cbn [k_pos k_vel]|].
  - apply Hc. lia.
  - apply Hc. lia.
  - apply (velocity_close ts ps qs d0 d1 f0 f1 e w k (r * d)); auto; [lia|]. intros j Lj <-. unfold d. now apply Hs.
  - apply (velocity_close ts ps qs d0 d1 f0 f1 e w (S k) (r * d)); auto. intros j Lj Ej. injection Ej as ->. unfold d. now apply Hs.
  - fold d. rewrite quarter_max by lra. apply Rplus_le_compat_l.
    replace (e / 2 * (d / (r * d))) with (e / (2 * r)) by (field; lra).
    apply Rmax_lub; [apply Rmax_l|]. eapply Rle_trans; [|apply Rmax_r]. apply Rmult_le_compat_r; [exact Pw|]. pose proof (Hh k Lk). unfold d. lra.
Qed.

Lemma steps_any ts : increasing_times ts -> forall j, (S (S j) < length ts)%nat -> 1 * (at_knot ts (S j) - at_knot ts j) <= at_knot ts (S (S j)) - at_knot ts j /\
    1 * (at_knot ts (S (S j)) - at_knot ts (S j)) <= at_knot ts (S (S j)) - at_knot ts j.
Proof. intros Hi j Lj. pose proof (Hi j ltac:(lia)). pose proof (Hi (S j) Lj). lra. Qed.
Lemma steps_regular h ts : regular h ts -> forall j, (S (S j) < length ts)%nat -> 2 * (at_knot ts (S j) - at_knot ts j) <= at_knot ts (S (S j)) - at_knot ts j /\
    2 * (at_knot ts (S (S j)) - at_knot ts (S j)) <= at_knot ts (S (S j)) - at_knot ts j.
Proof. intros Hr j Lj. pose proof (Hr j ltac:(lia)). pose proof (Hr (S j) Lj). lra. Qed.

(** ** Theorems *)

(** Two curves fitted at the same times to points which are at most [e] apart are at most [3/2 e] apart, however close or
    irregular the times are; differing velocities at the ends have an effect only if [h w / 4] exceeds [e / 2]. *)
Theorem C119_fit : forall b b' g g' (c c' : e3_curve R) e w h ts ps qs d0 d1 f0 f1 out out',
  consistent c -> e3_size c = 0%nat -> consistent c' -> e3_size c' = 0%nat ->
  (2 <= length ts)%nat -> length ts = length ps -> increasing_times ts -> (g + N.of_nat (length ts) < 2 ^ 64)%N -> (g' + N.of_nat (length ts) < 2 ^ 64)%N ->
  close_points e ps qs -> vnorm (HermiteE3.vsub d0 f0) <= w -> vnorm (HermiteE3.vsub d1 f1) <= w -> gaps h ts ->
  exists k k' x y l l', e3_fit_with_derivatives b g c ts ps d0 d1 out = Ok (k, x, l) /\ e3_fit_with_derivatives b' g' c' ts qs f0 f1 out' = Ok (k', y, l') /\
    forall t, at_knot ts 0 <= t <= at_knot ts (length ts - 1) ->
      exists p q, e3_evaluate x t = Ok (Some p) /\ e3_evaluate y t = Ok (Some q) /\ vnorm (HermiteE3.vsub p q) <= e + Rmax (e / 2) (h / 4 * w).
Proof.
  intros b b' g g' c c' e w h ts ps qs d0 d1 f0 f1 out out' Hc Hz Hc' Hz' H2 Hl Hi Hg Hg' Hcl D0 D1 Hh.
  assert (Hl' : length ts = length qs) by (destruct Hcl; congruence).
  destruct (e3_fit_spec b g c ts ps d0 d1 out Hc Hz Hl Hi Hg) as (x & ks & E & _ & [Hx _] & Ex).
  destruct (e3_fit_spec b' g' c' ts qs f0 f1 out' Hc' Hz' Hl' Hi Hg') as (y & ks' & E' & _ & [Hy _] & Ey).
  do 6 eexists. split; [exact E|]. split; [exact E'|]. intros t Ht.
  replace (e / 2) with (e / (2 * 1)) by (f_equal; ring).
  apply (fitted_close x y ts ps qs d0 d1 f0 f1 e w h 1); auto; [lra|now apply steps_any].
Qed.

(** At equidistant times [5/4 e] will do. *)
Theorem C119_equidistant : forall b b' g g' (c c' : e3_curve R) e w h ts ps qs d0 d1 f0 f1 out out',
  consistent c -> e3_size c = 0%nat -> consistent c' -> e3_size c' = 0%nat ->
  (2 <= length ts)%nat -> length ts = length ps -> increasing_times ts -> (g + N.of_nat (length ts) < 2 ^ 64)%N -> (g' + N.of_nat (length ts) < 2 ^ 64)%N ->
  close_points e ps qs -> vnorm (HermiteE3.vsub d0 f0) <= w -> vnorm (HermiteE3.vsub d1 f1) <= w -> regular h ts ->
  exists k k' x y l l', e3_fit_with_derivatives b g c ts ps d0 d1 out = Ok (k, x, l) /\ e3_fit_with_derivatives b' g' c' ts qs f0 f1 out' = Ok (k', y, l') /\
    forall t, at_knot ts 0 <= t <= at_knot ts (length ts - 1) ->
      exists p q, e3_evaluate x t = Ok (Some p) /\ e3_evaluate y t = Ok (Some q) /\ vnorm (HermiteE3.vsub p q) <= e + Rmax (e / 4) (h / 4 * w).
Proof.
  intros b b' g g' c c' e w h ts ps qs d0 d1 f0 f1 out out' Hc Hz Hc' Hz' H2 Hl Hi Hg Hg' Hcl D0 D1 Hh.
  assert (Hl' : length ts = length qs) by (destruct Hcl; congruence).
  destruct (e3_fit_spec b g c ts ps d0 d1 out Hc Hz Hl Hi Hg) as (x & ks & E & _ & [Hx _] & Ex).
  destruct (e3_fit_spec b' g' c' ts qs f0 f1 out' Hc' Hz' Hl' Hi Hg') as (y & ks' & E' & _ & [Hy _] & Ey).
  do 6 eexists. split; [exact E|]. split; [exact E'|]. intros t Ht.
  replace (e / 4) with (e / (2 * 2)) by (f_equal; ring).
  apply (fitted_close x y ts ps qs d0 d1 f0 f1 e w h 2); auto; [intros i Li; rewrite (Hh i Li); lra|lra|now apply (steps_regular h)].
Qed.

(** The positions of SE3 curves likewise, whatever the orientations and angular velocities of either. *)
Theorem C119_se3_fit : forall K K' g g' (c c' : se3_curve R) e w h ts vs us d0 d1 f0 f1 out out',
  (2 <= length ts)%nat -> length ts = length vs -> increasing_times ts -> (g + N.of_nat (length ts) < 2 ^ 64)%N -> (g' + N.of_nat (length ts) < 2 ^ 64)%N ->
  close_points e (map p_pos vs) (map p_pos us) -> vnorm (HermiteE3.vsub (t_lin d0) (t_lin f0)) <= w -> vnorm (HermiteE3.vsub (t_lin d1) (t_lin f1)) <= w -> gaps h ts ->
  exists k k' x y l l', se3_fit_with_derivatives K g c ts vs d0 d1 out = Ok (k, x, l) /\ se3_fit_with_derivatives K' g' c' ts us f0 f1 out' = Ok (k', y, l') /\
    forall t, at_knot ts 0 <= t <= at_knot ts (length ts - 1) ->
      exists p q, se3_evaluate K x t = Ok (Some p) /\ se3_evaluate K' y t = Ok (Some q) /\
        vnorm (HermiteE3.vsub (p_pos p) (p_pos q)) <= e + Rmax (e / 2) (h / 4 * w).
Proof.
  intros K K' g g' c c' e w h ts vs us d0 d1 f0 f1 out out' H2 Hl Hi Hg Hg' Hcl D0 D1 Hh.
  assert (Hl' : length ts = length us) by (destruct Hcl as [Q _]; rewrite !map_length in Q; congruence).
  destruct (se3_fit_R K g c ts vs d0 d1 out Hl Hi Hg) as (x & ks & E & Hx & Ex).
  destruct (se3_fit_R K' g' c' ts us f0 f1 out' Hl' Hi Hg') as (y & ks' & E' & Hy & Ey).
  do 6 eexists. split; [exact E|]. split; [exact E'|]. intros t Ht.
  assert (Lm : length ts = length (map p_pos vs)) by (now rewrite map_length).
  destruct (fitted_close (translation x) (translation y) ts _ _ _ _ _ _ e w h 1 H2 Lm Hi Hcl D0 D1 Hh Rlt_0_1 (steps_any ts Hi) Hx Hy Ex Ey t Ht)
    as (p & q & Ep & Eq & B).
  rewrite (translation_evaluate K) in Ep. rewrite (translation_evaluate K') in Eq. unfold on_value in Ep, Eq.
  destruct (se3_evaluate K x t) as [[p'|]| | |] eqn:Fp; try discriminate. destruct (se3_evaluate K' y t) as [[q'|]| | |] eqn:Fq; try discriminate.
  exists p', q'. split; [reflexivity|]. split; [reflexivity|].
  replace (p_pos p') with p by congruence. replace (p_pos q') with q by congruence. now replace (e / 2) with (e / (2 * 1)) by (f_equal; ring).
Qed.

(** Measurements with an error of at most [e] of a motion no faster than [V], at times no farther apart than [h]. *)
Theorem C119_measured : forall debug g (c : e3_curve R) V h e f ts ps d0 d1 out,
  consistent c -> e3_size c = 0%nat -> (2 <= length ts)%nat -> increasing_times ts -> (g + N.of_nat (length ts) < 2 ^ 64)%N ->
  changes V f (at_knot ts 0) (at_knot ts (length ts - 1)) -> gaps h ts -> vnorm d0 <= V -> vnorm d1 <= V -> close_points e ps (map f ts) ->
  exists g' c' ks, e3_fit_with_derivatives debug g c ts ps d0 d1 out = Ok (g', c', ks) /\
    forall t, at_knot ts 0 <= t <= at_knot ts (length ts - 1) ->
      exists p, e3_evaluate c' t = Ok (Some p) /\ vnorm (HermiteE3.vsub p (f t)) <= 3 / 4 * V * h + 3 / 2 * e.
Proof.
  intros debug g c V h e f ts ps d0 d1 out Hc Hz H2 Hi Hg Hf Hh D0 D1 Hcl.
  assert (Hl : length ts = length ps) by (destruct Hcl as [Q _]; rewrite map_length in Q; congruence).
  assert (Z : forall d, vnorm (HermiteE3.vsub d d) <= 0).
  { intros [? ? ?]. unfold HermiteE3.vsub. cbn [HermiteE3.vx HermiteE3.vy HermiteE3.vz]. numR. rewrite !Rminus_diag_eq by reflexivity. right. apply norm_vzero. }
  destruct (C119_fit debug debug g g c c e 0 h ts ps (map f ts) d0 d1 d0 d1 out out Hc Hz Hc Hz H2 Hl Hi Hg Hg Hcl (Z d0) (Z d1) Hh)
    as (k & k' & x & y & l & l' & E & E' & N).
  destruct (C115_fit debug g c V h f ts d0 d1 out Hc Hz H2 Hi Hg Hf Hh D0 D1) as (k2 & y2 & l2 & E2 & M).
  rewrite E' in E2. assert (y2 = y) by congruence. subst y2.
  do 3 eexists. split; [exact E|]. intros t Ht. destruct (N t Ht) as (p & q & Ep & Eq & B). destruct (M t Ht) as (q2 & Eq2 & B2).
  assert (q2 = q) by congruence. subst q2. exists p. split; [exact Ep|].
  assert (Pe : 0 <= e).
  { destruct Hcl as [_ Hcl]. specialize (Hcl 0%nat ltac:(lia)). pose proof (vnorm_pos (HermiteE3.vsub (nth 0 ps vzero) (nth 0 (map f ts) vzero))). lra. }
  rewrite Rmult_0_r, Rmax_left in B by lra.
  replace (HermiteE3.vsub p (f t)) with (HermiteE3.vadd (HermiteE3.vsub p q) (HermiteE3.vsub q (f t))).
  - eapply Rle_trans; [apply vnorm_add|]. lra.
  - generalize p q (f t). intros [? ? ?] [? ? ?] [? ? ?]. unfold HermiteE3.vadd, HermiteE3.vsub. cbn [HermiteE3.vx HermiteE3.vy HermiteE3.vz]. numR. f_equal; ring.
Qed.

(** Velocities are less tolerant: errors in the points count by the shortest step. *)
Theorem C119_velocity : forall b b' g g' (c c' : e3_curve R) e w d ts ps qs d0 d1 f0 f1 out out',
  consistent c -> e3_size c = 0%nat -> consistent c' -> e3_size c' = 0%nat ->
  (2 <= length ts)%nat -> length ts = length ps -> increasing_times ts -> (g + N.of_nat (length ts) < 2 ^ 64)%N -> (g' + N.of_nat (length ts) < 2 ^ 64)%N ->
  close_points e ps qs -> vnorm (HermiteE3.vsub d0 f0) <= w -> vnorm (HermiteE3.vsub d1 f1) <= w ->
  0 < d -> (forall i, (S i < length ts)%nat -> d <= at_knot ts (S i) - at_knot ts i) ->
  exists k k' x y l l', e3_fit_with_derivatives b g c ts ps d0 d1 out = Ok (k, x, l) /\ e3_fit_with_derivatives b' g' c' ts qs f0 f1 out' = Ok (k', y, l') /\
    forall t, at_knot ts 0 <= t <= at_knot ts (length ts - 1) ->
      exists u v, e3_evaluate_derivative x t 1 = Ok (Some u) /\ e3_evaluate_derivative y t 1 = Ok (Some v) /\
        vnorm (HermiteE3.vsub u v) <= 3 * e / d + Rmax (e / d) w.
Proof.
  intros b b' g g' c c' e w d ts ps qs d0 d1 f0 f1 out out' Hc Hz Hc' Hz' H2 Hl Hi Hg Hg' Hcl D0 D1 Pd Hd.
  assert (Hl' : length ts = length qs) by (destruct Hcl; congruence).
  destruct (e3_fit_spec b g c ts ps d0 d1 out Hc Hz Hl Hi Hg) as (x & ks & E & _ & [Hx _] & Ex).
  destruct (e3_fit_spec b' g' c' ts qs f0 f1 out' Hc' Hz' Hl' Hi Hg') as (y & ks' & E' & _ & [Hy _] & Ey).
  do 6 eexists. split; [exact E|]. split; [exact E'|]. intros t Hrange.
  destruct (times_segment_from ts 0 t Hi ltac:(lia) Hrange) as (k & _ & Lk & Ht). pose proof (Hi k Lk) as Hlt.
  destruct (nth_adjacent _ _ _ _ (fitted_nth x ts _ d0 d1 k Ex ltac:(lia)) (fitted_nth x ts _ d0 d1 (S k) Ex Lk)) as (u & v & Cx & _).
  destruct (nth_adjacent _ _ _ _ (fitted_nth y ts _ f0 f1 k Ey ltac:(lia)) (fitted_nth y ts _ f0 f1 (S k) Ey Lk)) as (u' & v' & Cy & _).
  do 2 eexists. split; [exact (velocity_segment x u _ _ _ _ v t Hx Cx Ht)|]. split; [exact (velocity_segment y u' _ _ _ _ v' t Hy Cy Ht)|].
  assert (Pe : 0 <= e) by (destruct Hcl as [_ Hcl]; specialize (Hcl 0%nat ltac:(lia)); pose proof (vnorm_pos (HermiteE3.vsub (nth 0 ps vzero) (nth 0 qs vzero))); lra).
  assert (V : forall i, (i < length ts)%nat -> vnorm (HermiteE3.vsub (fit_velocity ts ps d0 d1 i) (fit_velocity ts qs f0 f1 i)) <= Rmax (e / d) w).
  { intros i Li. replace (e / d) with (2 * e / (2 * d)) by (field; lra).
    apply (velocity_close ts ps qs d0 d1 f0 f1 e w i (2 * d)); auto; [lra|]. intros j Lj _. pose proof (Hd j ltac:(lia)). pose proof (Hd (S j) Lj). lra. }
  eapply Rle_trans; [apply (segment_velocity_close _ _ _ _ _ _ t e (Rmax (e / d) w)); auto; cbn [k_pos k_vel]; [apply Hcl; lia|apply Hcl; lia|apply V; lia|apply V; exact Lk]|].
  apply Rplus_le_compat_r. unfold Rdiv. apply Rmult_le_compat_l; [lra|]. apply Rinv_le_contravar; [exact Pd|now apply Hd].
Qed.

(** Nothing less will do. Points on a line at four times, the inner ones on the other side of the outer ones. *)
Definition four_times (s h : R) : list R := [0; s; s + h; s + h + s].
Definition zigzag (e : R) : list (vec3 R) := [V3 (- e) 0 0; V3 e 0 0; V3 e 0 0; V3 (- e) 0 0].
Definition origin4 : list (vec3 R) := [V3 0 0 0; V3 0 0 0; V3 0 0 0; V3 0 0 0].

Lemma vnorm_line v : vnorm (V3 v 0 0) = Rabs v.
Proof.
  unfold vnorm. cbn [HermiteE3.vx HermiteE3.vy HermiteE3.vz]. replace (_ + _ + _) with (Rsqr v) by (unfold Rsqr; ring). apply sqrt_Rsqr_abs.
Qed.

Lemma zigzag_close e : 0 <= e -> close_points e (zigzag e) origin4.
Proof.
  intros Pe. split; [reflexivity|]. intros i Li.
  assert (F : forall v, Rabs v = e -> vnorm (HermiteE3.vsub (V3 v 0 0) (V3 0 0 0)) <= e).
  { intros v Ev. unfold HermiteE3.vsub. cbn [HermiteE3.vx HermiteE3.vy HermiteE3.vz]. numR. rewrite !Rminus_0_r, vnorm_line. lra. }
  assert (A : Rabs e = e) by (now apply Rabs_pos_eq). assert (A' : Rabs (- e) = e) by (now rewrite Rabs_Ropp).
  destruct i as [|[|[|[|i]]]]; cbn [zigzag origin4 nth length] in *; try (now apply F). lia.
Qed.

Lemma four_increasing s h : 0 < s -> 0 < h -> increasing_times (four_times s h).
Proof. intros Ps Ph [|[|[|i]]] Li; unfold at_knot, four_times in *; cbn in *; try lra. lia. Qed.

Theorem C119_sharp : forall s h e, 0 < s -> 0 < h -> 0 <= e ->
  increasing_times (four_times s h) /\ close_points e (zigzag e) origin4 /\
  exists g g' c c' ks ks' p q, e3_fit true 0 e3_new (four_times s h) (zigzag e) [] = Ok (g, c, ks) /\
    e3_fit true 0 e3_new (four_times s h) origin4 [] = Ok (g', c', ks') /\
    e3_evaluate c (s + h / 2) = Ok (Some p) /\ e3_evaluate c' (s + h / 2) = Ok (Some q) /\
    vnorm (HermiteE3.vsub p q) = e + e / 2 * (h / (s + h)).
Proof.
  intros s h e Ps Ph Pe. set (ts := four_times s h). assert (Hi : increasing_times ts) by (now apply four_increasing).
  split; [exact Hi|]. split; [now apply zigzag_close|]. unfold e3_fit.
  destruct (e3_fit_spec true 0 e3_new ts (zigzag e) vzero vzero [] consistent_empty eq_refl eq_refl Hi eq_refl) as (x & ks & E & _ & [Hx _] & Ex).
  destruct (e3_fit_spec true 0 e3_new ts origin4 vzero vzero [] consistent_empty eq_refl eq_refl Hi eq_refl) as (y & ks' & E' & _ & [Hy _] & Ey).
  exists (0 + N.of_nat (length ts))%N, (0 + N.of_nat (length ts))%N, x, y, ([] ++ ks), ([] ++ ks'). do 2 eexists.
  split; [exact E|]. split; [exact E'|].
  assert (L1 : (1 < length ts)%nat) by (cbn; lia). assert (L2 : (2 < length ts)%nat) by (cbn; lia).
  destruct (nth_adjacent _ _ _ _ (fitted_nth x ts _ _ _ 1 Ex L1) (fitted_nth x ts _ _ _ 2 Ex L2)) as (u & v & Cx & _).
  destruct (nth_adjacent _ _ _ _ (fitted_nth y ts _ _ _ 1 Ey L1) (fitted_nth y ts _ _ _ 2 Ey L2)) as (u' & v' & Cy & _).
  assert (K1 : at_knot ts 1 = s) by reflexivity. assert (K2 : at_knot ts 2 = s + h) by reflexivity. rewrite K1, K2 in Cx, Cy.
  split; [exact (evaluate_segment x u _ _ _ _ v (s + h / 2) Hx Cx ltac:(lra))|].
  split; [exact (evaluate_segment y u' _ _ _ _ v' (s + h / 2) Hy Cy ltac:(lra))|].
  unfold fit_velocity, ts, four_times, zigzag, origin4. cbn [nth length Nat.eqb]. rewrite !slope_sample.
  match goal with |- vnorm ?z = _ => assert (z = V3 (e + e / 2 * (h / (s + h))) 0 0) as -> end.
  - apply vec3_ext. intros a.
    match goal with |- coord a (HermiteE3.vsub ?p ?q) = _ =>
      replace (coord a (HermiteE3.vsub p q)) with (coord a p - coord a q) by (generalize p, q; intros [? ? ?] [? ? ?]; destruct a; cbn; numR; ring) end.
    rewrite !coord_value. unfold hval. destruct a; cbn; numR; field; lra.
  - rewrite vnorm_line. apply Rabs_pos_eq. assert (0 <= h / (s + h)) by (apply Rlt_le, Rdiv_lt_0_compat; lra).
    assert (0 <= e / 2 * (h / (s + h))) by (apply Rmult_le_pos; lra). lra.
Qed.

(** With equidistant times that is [5/4 e]; with ever closer outer times it comes as close to [3/2 e] as one likes. *)
Corollary C119_factors : forall e h, 0 <= e -> 0 < h -> e + e / 2 * (h / (h + h)) = e + e / 4 /\
  forall r, r < 3 / 2 * e -> exists s, 0 < s /\ r < e + e / 2 * (h / (s + h)).
Proof.
  intros e h Pe Ph. split; [field; lra|]. intros r Hr.
  destruct (Rle_lt_dec r e) as [Le|Lt].
  - destruct (Req_dec e 0) as [->|Ne].
    + exists 1. split; [lra|]. lra.
    + exists 1. split; [lra|]. assert (0 < e / 2 * (h / (1 + h))) by (apply Rmult_lt_0_compat; [lra|apply Rdiv_lt_0_compat; lra]). lra.
  - exists (h * (3 / 2 * e - r) / (2 * (r - e))).
    assert (P : 0 < h * (3 / 2 * e - r) / (2 * (r - e))) by (apply Rdiv_lt_0_compat; [apply Rmult_lt_0_compat|]; lra). split; [exact P|].
    assert (Q : h / (h * (3 / 2 * e - r) / (2 * (r - e)) + h) = 2 * (r - e) / (r - e / 2)).
    { replace (h * (3 / 2 * e - r) / (2 * (r - e)) + h) with (h * (r - e / 2) / (2 * (r - e))) by (field; lra). field. repeat split; lra. }
    rewrite Q.
    assert (D : e / 2 * (2 * (r - e) / (r - e / 2)) - (r - e) = (r - e) * ((3 / 2 * e - r) / (r - e / 2))) by (field; lra).
    assert (0 < (r - e) * ((3 / 2 * e - r) / (r - e / 2))) by (apply Rmult_lt_0_compat; [|apply Rdiv_lt_0_compat]; lra). lra.
Qed.

(** ** Instances of the hypotheses *)
Example C119_example : forall h e, 0 < h -> 0 <= e ->
  (2 <= length (four_times h h))%nat /\ length (four_times h h) = length (zigzag e) /\ increasing_times (four_times h h) /\
  (0 + N.of_nat (length (four_times h h)) < 2 ^ 64)%N /\ close_points e (zigzag e) origin4 /\ regular h (four_times h h) /\ gaps h (four_times h h) /\
  vnorm (HermiteE3.vsub (vzero : vec3 R) vzero) <= 0 /\ changes 0 (fun _ => V3 0 0 0) 0 (3 * h) /\ map (fun _ => V3 0 0 0) (four_times h h) = origin4.
Proof.
  intros h e Ph Pe. split; [cbn; lia|]. split; [reflexivity|]. split; [now apply four_increasing|]. split; [reflexivity|].
  split; [now apply zigzag_close|]. assert (Rg : regular h (four_times h h)) by (intros [|[|[|i]]] Li; unfold at_knot, four_times in *; cbn in *; try lra; lia).
  split; [exact Rg|]. split; [intros i Li; rewrite (Rg i Li); lra|].
  assert (Z : vnorm (HermiteE3.vsub (vzero : vec3 R) vzero) <= 0).
  { unfold HermiteE3.vsub, vzero. cbn [HermiteE3.vx HermiteE3.vy HermiteE3.vz]. numR. rewrite Rminus_0_r, vnorm_line, Rabs_R0. lra. }
  split; [exact Z|]. split; [|reflexivity]. intros s t _ _. rewrite Rmult_0_l.
  unfold HermiteE3.vsub. cbn [HermiteE3.vx HermiteE3.vy HermiteE3.vz]. numR. rewrite Rminus_0_r, vnorm_line, Rabs_R0. lra.
Qed.

Print Assumptions C119_fit.
Print Assumptions C119_equidistant.
Print Assumptions C119_se3_fit.
Print Assumptions C119_measured.
Print Assumptions C119_velocity.
Print Assumptions C119_sharp.
Print Assumptions C119_factors.
