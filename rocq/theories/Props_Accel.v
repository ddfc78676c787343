(** * C130: accelerations of fitted curves *)

From Coquelicot Require Import Coquelicot.
From Coq Require Import List Bool Arith NArith ZArith Reals Lra Lia Psatz.
From Verif Require Import Base TimeOrder TimeInst KeyGen Manager ManagerSpec ManagerProofs ManagerProofs3 Num Sampling HermiteE3 HermiteSpec HermiteE3Proofs
  Props_HermiteE3 Props_Hermite2 Quat QuatSpec QuatProofs QuatLog QuatDist HermiteSE3 HermiteSE3Spec HermiteSE3Proofs HermiteSE3Curve HermiteSE3Motion
  Props_HermiteSE3 Props_HalfTurn Props_Speed Props_RoundSE3Fit Props_Noise Props_Sampled.
Import ListNotations.
Local Open Scope R_scope.

(** ** Specification *)

(** Length of step i, and mean velocity from point i to the next. *)
Definition step (ts : list R) (i : nat) : R := nth (S i) ts 0 - nth i ts 0.
Definition mean (ts : list R) (ps : list (vec3 R)) (i : nat) : vec3 R := vscale (/ step ts i) (HermiteE3.vsub (nth (S i) ps vzero) (nth i ps vzero)).

(** Distance of two vectors. *)
Definition vdist (a b : vec3 R) : R := vnorm (HermiteE3.vsub a b).

(** Between the middles of neighbouring steps, and of the outer steps and the ends, the mean velocities change by at most [A] per second. *)
Definition calm (A : R) (ts : list R) (ps : list (vec3 R)) (d0 d1 : vec3 R) : Prop :=
  (forall i, (S (S i) < length ts)%nat -> vdist (mean ts ps (S i)) (mean ts ps i) <= A * ((step ts i + step ts (S i)) / 2)) /\
  vdist (mean ts ps 0) d0 <= A * (step ts 0 / 2) /\ vdist (mean ts ps (length ts - 2)) d1 <= A * (step ts (length ts - 2) / 2).

(** Neighbouring steps differ in length by at most the factor [r]. *)
Definition balanced (r : R) (ts : list R) : Prop := forall i, (S (S i) < length ts)%nat -> step ts i <= r * step ts (S i) /\ step ts (S i) <= r * step ts i.

(** ** One segment *)

Lemma accel_weights x : 0 <= x <= 1 -> Rabs (4 - 6 * x) + Rabs (2 - 6 * x) <= 6.
Proof. intros X. unfold Rabs. destruct (Rcase_abs _), (Rcase_abs _); lra. Qed.

Lemma segment_accel ta tb (ka kb : knot R) t B : ta < tb -> ta <= t <= tb ->
  let m := vscale (/ (tb - ta)) (HermiteE3.vsub (k_pos kb) (k_pos ka)) in vdist m (k_vel ka) <= B * (tb - ta) -> vdist m (k_vel kb) <= B * (tb - ta) ->
  vnorm (e3_segment_acceleration ta tb ka kb t) <= 6 * B.
Proof.
  intros L Ht m B0 B1. set (x := (t - ta) / (tb - ta)). assert (X : 0 <= x <= 1) by (apply fraction_bounds; lra).
  assert (P : 0 < / (tb - ta)) by (apply Rinv_0_lt_compat; lra).
  replace (e3_segment_acceleration ta tb ka kb t) with
    (vscale (/ (tb - ta)) (HermiteE3.vadd (vscale (4 - 6 * x) (HermiteE3.vsub m (k_vel ka))) (vscale (2 - 6 * x) (HermiteE3.vsub m (k_vel kb))))).
  - rewrite vnorm_scale, Rabs_pos_eq by lra. apply (Rmult_le_reg_l (tb - ta)); [lra|]. rewrite <- Rmult_assoc, Rinv_r, Rmult_1_l by lra.
    eapply Rle_trans; [apply vnorm_add|]. rewrite !vnorm_scale. unfold vdist in *.
    pose proof (Rmult_le_compat_l _ _ _ (Rabs_pos (4 - 6 * x)) B0). pose proof (Rmult_le_compat_l _ _ _ (Rabs_pos (2 - 6 * x)) B1).
    assert (PB : 0 <= B * (tb - ta)) by (eapply Rle_trans; [apply vnorm_pos|exact B0]).
    pose proof (Rmult_le_compat_r _ _ _ PB (accel_weights x X)). lra.
  - unfold e3_segment_acceleration. numR. fold x. unfold m. destruct ka as [[? ? ?] [? ? ?]], kb as [[? ? ?] [? ? ?]].
    unfold HermiteE3.vadd, HermiteE3.vsub, vscale, vmul. cbn [HermiteE3.vx HermiteE3.vy HermiteE3.vz k_pos k_vel]. numR. f_equal; field; lra.
Qed.

(** ** Fits *)

Lemma central_apart a b (p0 p1 p2 : vec3 R) A : 0 < a -> 0 < b ->
  let m0 := vscale (/ a) (HermiteE3.vsub p1 p0) in let m1 := vscale (/ b) (HermiteE3.vsub p2 p1) in let m := vscale (/ (a + b)) (HermiteE3.vsub p2 p0) in
  vdist m1 m0 <= A * ((a + b) / 2) -> vdist m0 m <= A * (b / 2) /\ vdist m1 m <= A * (a / 2).
Proof.
  intros Pa Pb m0 m1 m H. assert (Q : forall c, 0 < c -> 0 <= c / (a + b)) by (intros c Pc; left; apply Rdiv_lt_0_compat; lra).
  assert (E0 : HermiteE3.vsub m0 m = vscale (- (b / (a + b))) (HermiteE3.vsub m1 m0)).
  { unfold m0, m1, m. destruct p0, p1, p2. unfold HermiteE3.vsub, vscale. cbn. numR. f_equal; field; lra. }
  assert (E1 : HermiteE3.vsub m1 m = vscale (a / (a + b)) (HermiteE3.vsub m1 m0)).
  { unfold m0, m1, m. destruct p0, p1, p2. unfold HermiteE3.vsub, vscale. cbn. numR. f_equal; field; lra. }
  unfold vdist in *. rewrite E0, E1, !vnorm_scale, Rabs_Ropp, (Rabs_pos_eq _ (Q b Pb)), (Rabs_pos_eq _ (Q a Pa)). split.
  - apply Rle_trans with (b / (a + b) * (A * ((a + b) / 2))); [apply Rmult_le_compat_l; auto|]. apply Req_le. field. lra.
  - apply Rle_trans with (a / (a + b) * (A * ((a + b) / 2))); [apply Rmult_le_compat_l; auto|]. apply Req_le. field. lra.
Qed.

Lemma calm_velocities A r ts ps d0 d1 : increasing_times ts -> (2 <= length ts)%nat -> 0 <= A -> 1 <= r -> calm A ts ps d0 d1 -> balanced r ts ->
  forall i, (S i < length ts)%nat -> vdist (mean ts ps i) (fit_velocity ts ps d0 d1 i) <= A * r / 2 * step ts i /\
    vdist (mean ts ps i) (fit_velocity ts ps d0 d1 (S i)) <= A * r / 2 * step ts i.
Proof.
  intros Hi H2 PA Pr (C & C0 & C1) HB.
  assert (P : forall i, (S i < length ts)%nat -> 0 < step ts i) by (intros i L; pose proof (Hi i L) as Q; unfold at_knot in Q; change (@tzero R _) with 0 in Q; unfold step; lra).
  assert (Wd : forall c s, c <= r * s -> A * (c / 2) <= A * r / 2 * s).
  { intros c s H. pose proof (Rmult_le_compat_l A _ _ PA H). lra. }
  assert (N : forall i, (S (S i) < length ts)%nat -> vdist (mean ts ps i) (fit_velocity ts ps d0 d1 (S i)) <= A * r / 2 * step ts i /\
    vdist (mean ts ps (S i)) (fit_velocity ts ps d0 d1 (S i)) <= A * r / 2 * step ts (S i)).
  { intros i L. destruct (central_apart (step ts i) (step ts (S i)) (nth i ps vzero) (nth (S i) ps vzero) (nth (S (S i)) ps vzero) A (P i ltac:(lia)) (P (S i) L) (C i L)) as [X Y].
    assert (E : fit_velocity ts ps d0 d1 (S i) = vscale (/ (step ts i + step ts (S i))) (HermiteE3.vsub (nth (S (S i)) ps vzero) (nth i ps vzero))).
    { unfold fit_velocity. destruct (Nat.eqb_spec (S (S i)) (length ts)); [lia|]. unfold e3_slope. rewrite vmul_scale. numR. change (@tzero R _) with 0. f_equal. unfold step.
      pose proof (P i ltac:(lia)). pose proof (P (S i) L). unfold step in *. unfold Rdiv. rewrite Rmult_1_l. f_equal. ring. }
    rewrite E. destruct (HB i L) as [B0 B1]. split; [eapply Rle_trans; [exact X|now apply Wd]|eapply Rle_trans; [exact Y|now apply Wd]]. }
  intros i L. pose proof (P i L) as Pi. assert (Q : step ts i <= r * step ts i) by (pose proof (Rmult_le_compat_r (step ts i) _ _ ltac:(lra) Pr); lra). split.
  - destruct i as [|i]; [eapply Rle_trans; [exact C0|now apply Wd]|]. now apply N.
  - destruct (Nat.eq_dec (S (S i)) (length ts)) as [E|E].
    + unfold fit_velocity. rewrite (proj2 (Nat.eqb_eq _ _) E). replace (length ts - 2)%nat with i in C1 by lia. eapply Rle_trans; [exact C1|now apply Wd].
    + apply N. lia.
Qed.

Lemma half_open_segment ts t : increasing_times ts -> (2 <= length ts)%nat -> at_knot ts 0 <= t <= at_knot ts (length ts - 1) ->
  exists k, (S k < length ts)%nat /\ (at_knot ts k <= t < at_knot ts (S k) \/ (t = at_knot ts (S k) /\ S (S k) = length ts)).
Proof.
  intros Hi H2 Ht. destruct (times_segment_from ts 0 t Hi ltac:(lia) Ht) as (k & _ & Lk & Hk).
  destruct (Rlt_le_dec t (at_knot ts (S k))) as [L|L]; [exists k; split; [exact Lk|left; lra]|].
  destruct (Nat.eq_dec (S (S k)) (length ts)) as [E|E]; [exists k; split; [exact Lk|right; split; [lra|exact E]]|].
  exists (S k). split; [lia|]. left. pose proof (Hi (S k) ltac:(lia)). lra.
Qed.

Lemma fitted_accel (x : e3_curve R) A r ts ps d0 d1 t : increasing_times ts -> (2 <= length ts)%nat -> 0 <= A -> 1 <= r -> calm A ts ps d0 d1 -> balanced r ts ->
  consistent x -> contents x = combine ts (map (fit_knot ts ps d0 d1) (seq 0 (length ts))) -> at_knot ts 0 <= t <= at_knot ts (length ts - 1) ->
  exists w, e3_evaluate_derivative x t 2 = Ok (Some w) /\ vnorm w <= 3 * A * r.
Proof.
  intros Hi H2 PA Pr HC HB Hx Hcon Ht. destruct (half_open_segment ts t Hi H2 Ht) as (k & Lk & Hk).
  destruct (nth_adjacent _ _ _ _ (fitted_nth x ts ps d0 d1 k Hcon ltac:(lia)) (fitted_nth x ts ps d0 d1 (S k) Hcon Lk)) as (u & v & Ec & Lu).
  assert (Lc : length (contents x) = length ts) by (rewrite Hcon, combine_length, map_length, seq_length; lia).
  rewrite Ec, app_length in Lc. cbn [length] in Lc.
  eexists. split.
  - apply (acceleration_segment x u _ _ _ _ v t Hx Ec). destruct Hk as [Hk|[Hk E]]; [now left|]. right. split; [exact Hk|]. destruct v; [reflexivity|cbn in Lc; lia].
  - pose proof (Hi k Lk) as O. destruct (calm_velocities A r ts ps d0 d1 Hi H2 PA Pr HC HB k Lk) as [V0 V1].
    replace (3 * A * r) with (6 * (A * r / 2)) by field. apply segment_accel; [exact O|lra|exact V0|exact V1].
Qed.

(** ** C130 *)

(** Mean velocities that change by at most [A] per second, steps that differ by at most the factor [r]. *)
Theorem C130_fit : forall debug g (c : e3_curve R) A r ts ps d0 d1 out,
  consistent c -> e3_size c = 0%nat -> length ts = length ps -> (2 <= length ts)%nat -> increasing_times ts ->
  (g + N.of_nat (length ts) < 2 ^ 64)%N -> 0 <= A -> 1 <= r -> calm A ts ps d0 d1 -> balanced r ts ->
  exists g' c' ks, e3_fit_with_derivatives debug g c ts ps d0 d1 out = Ok (g', c', ks) /\
    forall t, at_knot ts 0 <= t <= at_knot ts (length ts - 1) -> exists w, e3_evaluate_derivative c' t 2 = Ok (Some w) /\ vnorm w <= 3 * A * r.
Proof.
  intros debug g c A r ts ps d0 d1 out Hc Hz Hl H2 Hi Hg PA Pr HC HB.
  destruct (e3_fit_spec debug g c ts ps d0 d1 out Hc Hz Hl Hi Hg) as (x & ks & E & _ & [Hx _] & Hcon).
  do 3 eexists. split; [exact E|]. intros t Ht. now apply (fitted_accel x A r ts ps d0 d1 t).
Qed.

(** Linear accelerations of SE3 curves, whatever the orientations. *)
Theorem C130_se3_fit : forall K g (c : se3_curve R) A r ts vs d0 d1 out,
  length ts = length vs -> (2 <= length ts)%nat -> increasing_times ts -> (g + N.of_nat (length ts) < 2 ^ 64)%N ->
  0 <= A -> 1 <= r -> calm A ts (map p_pos vs) (t_lin d0) (t_lin d1) -> balanced r ts ->
  exists g' c' ks, se3_fit_with_derivatives K g c ts vs d0 d1 out = Ok (g', c', ks) /\
    forall t, at_knot ts 0 <= t <= at_knot ts (length ts - 1) -> exists w, se3_evaluate_acceleration c' t = Ok (Some w) /\ vnorm w <= 3 * A * r.
Proof.
  intros K g c A r ts vs d0 d1 out Hl H2 Hi Hg PA Pr HC HB.
  destruct (se3_fit_R K g c ts vs d0 d1 out Hl Hi Hg) as (x & ks & E & Hx & Ex).
  do 3 eexists. split; [exact E|]. intros t Ht.
  destruct (fitted_accel (translation x) A r ts _ _ _ t Hi H2 PA Pr HC HB Hx Ex Ht) as (w & Ew & B). exists w. split; [|exact B].
  rewrite <- translation_acceleration. exact Ew.
Qed.

(** ** Samples of a motion *)

Lemma Rabs_def2_le x a : Rabs x <= a -> - a <= x <= a.
Proof. intros H. pose proof (Rle_abs x). pose proof (Rle_abs (- x)). rewrite Rabs_Ropp in *. lra. Qed.

Lemma mean_near f v lo hi A s t e : moves f v lo hi -> changes A v lo hi -> 0 <= A -> lo <= s -> s < t -> t <= hi -> e = s \/ e = t ->
  vdist (vscale (/ (t - s)) (HermiteE3.vsub (f t) (f s))) (v e) <= A * ((t - s) / 2).
Proof.
  intros M C PA L1 L2 L3 He. apply along_norm; [apply Rmult_le_pos; lra|]. intros u U. rewrite along_sub, along_scale, along_sub.
  pose proof (taylor1 _ _ lo hi (along_moves u f v lo hi M) A) as T. cbn beta in T.
  specialize (T (if Req_EM_T e s then t else s) e (along_changes u A v lo hi U C)).
  assert (P : 0 < / (t - s)) by (apply Rinv_0_lt_compat; lra). apply (Rmult_le_reg_l (t - s)); [lra|].
  replace ((t - s) * (/ (t - s) * (along u (f t) - along u (f s)) - along u (v e))) with (along u (f t) - along u (f s) - along u (v e) * (t - s)) by (field; lra).
  destruct (Req_EM_T e s) as [->|N].
  - specialize (T ltac:(lra) ltac:(lra)). apply Rabs_def2_le in T. lra.
  - destruct He as [->| ->]; [lra|]. specialize (T ltac:(lra) ltac:(lra)). apply Rabs_def2_le in T. lra.
Qed.

Lemma samples_calm f v A ts : increasing_times ts -> (2 <= length ts)%nat -> 0 <= A ->
  let lo := at_knot ts 0 in let hi := at_knot ts (length ts - 1) in moves f v lo hi -> changes A v lo hi -> calm A ts (map f ts) (v lo) (v hi).
Proof.
  intros Hi H2 PA lo hi M C.
  assert (G : forall i e, (S i < length ts)%nat -> e = at_knot ts i \/ e = at_knot ts (S i) -> vdist (mean ts (map f ts) i) (v e) <= A * (step ts i / 2)).
  { intros i e L He. unfold mean, step. rewrite !nth_sample by lia. fold (at_knot ts i). fold (at_knot ts (S i)).
    assert (lo <= at_knot ts i) by (apply times_le; auto; lia). assert (at_knot ts (S i) <= hi) by (apply times_le; auto; lia).
    assert (at_knot ts i < at_knot ts (S i)) by (apply Hi; lia).
    apply (mean_near f v lo hi); auto. }
  split; [|split].
  - intros i L. pose proof (G i (at_knot ts (S i)) ltac:(lia) (or_intror eq_refl)) as B0.
    pose proof (G (S i) (at_knot ts (S i)) ltac:(lia) (or_introl eq_refl)) as B1. unfold vdist in *.
    replace (HermiteE3.vsub (mean ts (map f ts) (S i)) (mean ts (map f ts) i)) with
      (HermiteE3.vadd (HermiteE3.vsub (mean ts (map f ts) (S i)) (v (at_knot ts (S i)))) (vscale (-1) (HermiteE3.vsub (mean ts (map f ts) i) (v (at_knot ts (S i)))))).
    + eapply Rle_trans; [apply vnorm_add|]. rewrite vnorm_scale, Rabs_left1 by lra. lra.
    + destruct (mean ts (map f ts) (S i)), (mean ts (map f ts) i), (v (at_knot ts (S i))). unfold HermiteE3.vadd, HermiteE3.vsub, vscale. cbn. numR. f_equal; ring.
  - apply G; [lia|now left].
  - apply G; [lia|right]. unfold hi. f_equal. lia.
Qed.

(** Samples of a motion whose velocity changes by at most [A] per second, with its velocities at the ends. *)
Theorem C130_motion : forall debug g (c : e3_curve R) f v A r ts out,
  consistent c -> e3_size c = 0%nat -> (2 <= length ts)%nat -> increasing_times ts -> (g + N.of_nat (length ts) < 2 ^ 64)%N -> 0 <= A -> 1 <= r ->
  let lo := at_knot ts 0 in let hi := at_knot ts (length ts - 1) in moves f v lo hi -> changes A v lo hi -> balanced r ts ->
  exists g' c' ks, e3_fit_with_derivatives debug g c ts (map f ts) (v lo) (v hi) out = Ok (g', c', ks) /\
    forall t, lo <= t <= hi -> exists w, e3_evaluate_derivative c' t 2 = Ok (Some w) /\ vnorm w <= 3 * A * r.
Proof.
  intros debug g c f v A r ts out Hc Hz H2 Hi Hg PA Pr lo hi M C HB. apply C130_fit; auto; [now rewrite map_length|]. now apply samples_calm.
Qed.

(** The factor three is reached, with equal steps. *)
Theorem C130_sharp : forall A, 0 <= A -> let ps := [V3 0 0 0; V3 0 0 0; V3 A 0 0; V3 A 0 0] in
  calm A [0; 1; 2; 3] ps vzero vzero /\ balanced 1 [0; 1; 2; 3] /\
  exists g' (c' : e3_curve R) ks w, e3_fit true 0 e3_new [0; 1; 2; 3] ps [] = Ok (g', c', ks) /\
    e3_evaluate_derivative c' 1 2 = Ok (Some w) /\ vnorm w = 3 * A.
Proof.
  intros A PA ps.
  assert (M : forall i, (i < 3)%nat -> mean [0; 1; 2; 3] ps i = V3 (if Nat.eqb i 1 then A else 0) 0 0).
  { intros [|[|[|i]]] L; [| | |lia]; unfold mean, step, ps, vscale, HermiteE3.vsub; cbn; numR; f_equal; field. }
  assert (Ln : forall a b, vdist (V3 a 0 0) (V3 b 0 0) = Rabs (a - b)).
  { intros a b. unfold vdist. rewrite <- vnorm_line. f_equal. unfold HermiteE3.vsub. cbn. numR. f_equal; ring. }
  split; [|split].
  - split; [|split].
    + intros [|[|i]] L; [| |cbn in L; lia]; rewrite !M by lia; cbn [Nat.eqb]; rewrite Ln; unfold step; cbn; [rewrite Rabs_pos_eq|rewrite Rabs_left1]; lra.
    + rewrite M by lia. change (@vzero R _) with (V3 0 0 0 : vec3 R). cbn [Nat.eqb]. rewrite Ln, Rminus_0_r, Rabs_R0. unfold step. cbn. lra.
    + rewrite M by (cbn; lia). change (@vzero R _) with (V3 0 0 0 : vec3 R). cbn [Nat.eqb length Nat.sub]. rewrite Ln, Rminus_0_r, Rabs_R0. unfold step. cbn. lra.
  - intros [|[|i]] L; unfold step; cbn in *; [lra|lra|lia].
  - unfold e3_fit.
    destruct (e3_fit_spec true 0 e3_new ts4 ps vzero vzero [] consistent_empty eq_refl eq_refl ts4_increasing eq_refl) as (x & ks & E & _ & [Hx _] & Hcon).
    destruct (nth_adjacent _ _ _ _ (fitted_nth x ts4 ps vzero vzero 1 Hcon ltac:(simpl; lia)) (fitted_nth x ts4 ps vzero vzero 2 Hcon ltac:(simpl; lia))) as (u & v & Ec & _).
    do 4 eexists. split; [exact E|].
    split; [apply (acceleration_segment x u _ _ _ _ v 1 Hx Ec); left; unfold at_knot; simpl; lra|].
    match goal with |- vnorm ?z = _ => replace z with (V3 (3 * A) 0 0 : vec3 R) end; [rewrite vnorm_line; apply Rabs_pos_eq; lra|].
    unfold e3_segment_acceleration, fit_velocity, e3_slope, at_knot, ps, ts4, HermiteE3.vadd, HermiteE3.vsub, vmul. simpl. numR. f_equal; field.
Qed.

Example C130_example : calm 2 [0; 1; 3] [V3 0 0 0; V3 1 0 0; V3 7 0 0] (V3 0 0 0) (V3 5 0 0) /\ balanced 2 [0; 1; 3] /\ increasing_times [0; 1; 3].
Proof.
  assert (M0 : mean [0; 1; 3] [V3 0 0 0; V3 1 0 0; V3 7 0 0] 0 = V3 1 0 0) by (unfold mean, step, vscale, HermiteE3.vsub; cbn; numR; f_equal; field).
  assert (M1 : mean [0; 1; 3] [V3 0 0 0; V3 1 0 0; V3 7 0 0] 1 = V3 3 0 0) by (unfold mean, step, vscale, HermiteE3.vsub; cbn; numR; f_equal; field).
  assert (Ln : forall a b, vdist (V3 a 0 0) (V3 b 0 0) = Rabs (a - b)).
  { intros a b. unfold vdist. rewrite <- vnorm_line. f_equal. unfold HermiteE3.vsub. cbn. numR. f_equal; ring. }
  split; [split; [|split]|split].
  - intros [|i] L; [|cbn in L; lia]. rewrite M0, M1, Ln. unfold step. cbn. rewrite Rabs_pos_eq; lra.
  - rewrite M0, Ln. unfold step. cbn. rewrite Rabs_pos_eq; lra.
  - cbn [length Nat.sub]. rewrite M1, Ln. unfold step. cbn. rewrite Rabs_left1; lra.
  - intros [|i] L; unfold step; cbn in *; [lra|lia].
  - intros [|[|i]] L; unfold at_knot; simpl in *; [lra|lra|lia].
Qed.

Example C130_motion_example : moves (falling 2) (falling_velocity 2) 0 3 /\ changes 2 (falling_velocity 2) 0 3.
Proof. split; [apply falling_moves|apply falling_changes; lra]. Qed.
