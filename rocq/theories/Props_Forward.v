(** * C128: when fitted curves do not move backwards *)

From Coquelicot Require Import Coquelicot.
From Coq Require Import List Bool Arith NArith ZArith Reals Lra Lia Psatz.
From Verif Require Import Base TimeOrder TimeInst KeyGen Manager ManagerSpec ManagerProofs ManagerProofs3 Num Sampling HermiteE3 HermiteSpec HermiteE3Proofs
  Props_HermiteE3 Props_Hermite2 Quat QuatSpec QuatProofs QuatLog QuatDist HermiteSE3 HermiteSE3Spec HermiteSE3Proofs HermiteSE3Curve HermiteSE3Motion
  Props_HermiteSE3 Props_HalfTurn Props_Speed Props_RoundSE3Fit Props_Noise.
Import ListNotations.
Local Open Scope R_scope.

(** ** Specification *)

(** Mean velocity of coordinate [a] from point i to the next. *)
Definition mean_velocity (a : axis) (ts : list R) (ps : list (vec3 R)) (i : nat) : R :=
  (coord a (nth (S i) ps vzero) - coord a (nth i ps vzero)) / (nth (S i) ts 0 - nth i ts 0).

(** The coordinate never decreases, and mean velocities of neighbouring steps differ by at most the factor [F]. *)
Definition gradual (F : R) (a : axis) (ts : list R) (ps : list (vec3 R)) : Prop :=
  (forall i, (S i < length ts)%nat -> 0 <= mean_velocity a ts ps i) /\
  forall i, (S (S i) < length ts)%nat -> mean_velocity a ts ps i <= F * mean_velocity a ts ps (S i) /\ mean_velocity a ts ps (S i) <= F * mean_velocity a ts ps i.

(** Steps of equal length. *)
Definition same_steps (ts : list R) : Prop := forall i, (S (S i) < length ts)%nat -> nth (S (S i)) ts 0 - nth (S i) ts 0 = nth (S i) ts 0 - nth i ts 0.

(** ** Fits *)

Section Fitted.
Variables (x : e3_curve R) (ts : list R) (ps : list (vec3 R)) (d0 d1 : vec3 R) (a : axis).
Hypothesis Hx : consistent x.
Hypothesis Hcon : contents x = combine ts (map (fit_knot ts ps d0 d1) (seq 0 (length ts))).
Local Notation mean := (mean_velocity a ts ps).
Hypothesis Hv : forall i, (S i < length ts)%nat ->
  0 <= coord a (fit_velocity ts ps d0 d1 i) <= 3 * mean i /\ 0 <= coord a (fit_velocity ts ps d0 d1 (S i)) <= 3 * mean i.

Lemma forward_segment k s t : (S k < length ts)%nat -> at_knot ts k <= s -> s <= t -> t <= at_knot ts (S k) ->
  exists v w, e3_evaluate x s = Ok (Some v) /\ e3_evaluate x t = Ok (Some w) /\ coord a v <= coord a w.
Proof.
  intros Lk A B C. destruct (Hv k Lk) as [V0 V1].
  destruct (nth_adjacent _ _ _ _ (fitted_nth x ts ps d0 d1 k Hcon ltac:(lia)) (fitted_nth x ts ps d0 d1 (S k) Hcon Lk)) as (u & v & Ec & _).
  exact (C73_monotone x _ _ _ _ a s t Hx (ex_intro _ u (ex_intro _ v Ec)) A B C V0 V1).
Qed.

Lemma forward_up j : (1 <= j)%nat -> (j < length ts)%nat -> forall s t, at_knot ts 0 <= s -> s <= t -> t <= at_knot ts j ->
  exists v w, e3_evaluate x s = Ok (Some v) /\ e3_evaluate x t = Ok (Some w) /\ coord a v <= coord a w.
Proof.
  induction j as [|j IH]; intros J1 Lj s t A B C; [lia|]. destruct (Nat.eq_dec j 0) as [->|J0]; [now apply (forward_segment 0)|].
  specialize (IH ltac:(lia) ltac:(lia)). destruct (Rle_lt_dec t (at_knot ts j)) as [T|T]; [now apply IH|].
  destruct (Rle_lt_dec (at_knot ts j) s) as [U|U]; [now apply (forward_segment j)|].
  destruct (IH s (at_knot ts j) A ltac:(lra) ltac:(lra)) as (v & w & Ev & Ew & L1).
  destruct (forward_segment j (at_knot ts j) t Lj ltac:(lra) ltac:(lra) C) as (w' & z & Ew' & Ez & L2).
  assert (w' = w) by congruence. subst w'. exists v, z. split; [exact Ev|]. split; [exact Ez|]. lra.
Qed.
End Fitted.

Lemma central F ts ps a i s : increasing_times ts -> (S (S i) < length ts)%nat -> gradual F a ts ps ->
  (forall y z, 0 <= y -> 0 <= z -> z <= F * y -> (y * (nth (S i) ts 0 - nth i ts 0) + z * (nth (S (S i)) ts 0 - nth (S i) ts 0)) <= 3 * y * (nth (S (S i)) ts 0 - nth i ts 0)) ->
  (forall y z, 0 <= y -> 0 <= z -> z <= F * y -> (z * (nth (S i) ts 0 - nth i ts 0) + y * (nth (S (S i)) ts 0 - nth (S i) ts 0)) <= 3 * y * (nth (S (S i)) ts 0 - nth i ts 0)) ->
  s = coord a (e3_slope (nth i ts 0) (nth (S (S i)) ts 0) (nth i ps vzero) (nth (S (S i)) ps vzero)) ->
  0 <= s <= 3 * mean_velocity a ts ps i /\ s <= 3 * mean_velocity a ts ps (S i).
Proof.
  intros Hi L [G0 G1] Q0 Q1 ->. rewrite coord_slope. pose proof (G0 i ltac:(lia)) as A. pose proof (G0 (S i) L) as B. destruct (G1 i L) as [C D].
  pose proof (Hi i ltac:(lia)) as I0. pose proof (Hi (S i) L) as I1. unfold at_knot in I0, I1.
  specialize (Q0 _ _ A B D). specialize (Q1 _ _ B A C).
  set (t0 := nth i ts 0) in *. set (t1 := nth (S i) ts 0) in *. set (t2 := nth (S (S i)) ts 0) in *.
  assert (E : coord a (nth (S (S i)) ps vzero) - coord a (nth i ps vzero) = mean_velocity a ts ps i * (t1 - t0) + mean_velocity a ts ps (S i) * (t2 - t1)).
  { unfold mean_velocity. fold t0 t1 t2. field. lra. }
  rewrite E. set (y := mean_velocity a ts ps i) in *. set (z := mean_velocity a ts ps (S i)) in *.
  assert (P : 0 <= y * (t1 - t0) + z * (t2 - t1)) by (apply Rplus_le_le_0_compat; apply Rmult_le_pos; lra).
  split; [split|].
  - apply Rmult_le_pos; [exact P|]. left. apply Rinv_0_lt_compat. lra.
  - apply Rle_div_l; [lra|]. exact Q0.
  - apply Rle_div_l; [lra|]. exact Q1.
Qed.

Lemma gradual_velocities F ts ps a d0 d1 : increasing_times ts -> (2 <= length ts)%nat -> gradual F a ts ps -> F <= 3 \/ (F <= 5 /\ same_steps ts) ->
  0 <= coord a d0 <= 3 * mean_velocity a ts ps 0 -> 0 <= coord a d1 <= 3 * mean_velocity a ts ps (length ts - 2) ->
  forall i, (S i < length ts)%nat ->
    0 <= coord a (fit_velocity ts ps d0 d1 i) <= 3 * mean_velocity a ts ps i /\ 0 <= coord a (fit_velocity ts ps d0 d1 (S i)) <= 3 * mean_velocity a ts ps i.
Proof.
  intros Hi H2 HG HF D0 D1.
  assert (C : forall i, (S (S i) < length ts)%nat -> let s := coord a (fit_velocity ts ps d0 d1 (S i)) in
    0 <= s <= 3 * mean_velocity a ts ps i /\ s <= 3 * mean_velocity a ts ps (S i)).
  { intros i L s. pose proof (Hi i ltac:(lia)) as I0. pose proof (Hi (S i) L) as I1. unfold at_knot in I0, I1.
    apply (central F ts ps a i s Hi L HG).
    - intros y z Y Z Q. destruct HF as [F3|[F5 R]].
      + pose proof (Rmult_le_compat_r y _ _ Y F3). pose proof (Rmult_le_compat_r (nth (S (S i)) ts 0 - nth (S i) ts 0) z (3 * y) ltac:(lra) ltac:(lra)).
        pose proof (Rmult_le_pos y (nth (S i) ts 0 - nth i ts 0) Y ltac:(lra)). lra.
      + rewrite (R i L). pose proof (R i L). pose proof (Rmult_le_compat_r y _ _ Y F5).
        pose proof (Rmult_le_compat_r (nth (S i) ts 0 - nth i ts 0) z (5 * y) ltac:(lra) ltac:(lra)).
        replace (nth (S (S i)) ts 0 - nth i ts 0) with (2 * (nth (S i) ts 0 - nth i ts 0)) by lra. lra.
    - intros y z Y Z Q. destruct HF as [F3|[F5 R]].
      + pose proof (Rmult_le_compat_r y _ _ Y F3). pose proof (Rmult_le_compat_r (nth (S i) ts 0 - nth i ts 0) z (3 * y) ltac:(lra) ltac:(lra)).
        pose proof (Rmult_le_pos y (nth (S (S i)) ts 0 - nth (S i) ts 0) Y ltac:(lra)). lra.
      + rewrite (R i L). pose proof (R i L). pose proof (Rmult_le_compat_r y _ _ Y F5).
        pose proof (Rmult_le_compat_r (nth (S i) ts 0 - nth i ts 0) z (5 * y) ltac:(lra) ltac:(lra)).
        replace (nth (S (S i)) ts 0 - nth i ts 0) with (2 * (nth (S i) ts 0 - nth i ts 0)) by lra. lra.
    - unfold s, fit_velocity. destruct (Nat.eqb_spec (S (S i)) (length ts)); [lia|reflexivity]. }
  intros i L. split.
  - destruct i as [|i]; [exact D0|]. destruct (C i L) as [A B]. lra.
  - destruct (Nat.eq_dec (S (S i)) (length ts)) as [E|E].
    + unfold fit_velocity. rewrite (proj2 (Nat.eqb_eq _ _) E). replace (length ts - 2)%nat with i in D1 by lia. exact D1.
    + destruct (C i ltac:(lia)) as [A _]. exact A.
Qed.

(** ** C128 *)

(** Mean velocities of neighbouring steps differing by at most the factor three, or five if the steps are equal:
    the coordinate of the curve never decreases. *)
Theorem C128_fit : forall debug g (c : e3_curve R) F ts ps a d0 d1 out,
  consistent c -> e3_size c = 0%nat -> length ts = length ps -> (2 <= length ts)%nat -> increasing_times ts ->
  (g + N.of_nat (length ts) < 2 ^ 64)%N -> gradual F a ts ps -> F <= 3 \/ (F <= 5 /\ same_steps ts) ->
  0 <= coord a d0 <= 3 * mean_velocity a ts ps 0 -> 0 <= coord a d1 <= 3 * mean_velocity a ts ps (length ts - 2) ->
  exists g' c' ks, e3_fit_with_derivatives debug g c ts ps d0 d1 out = Ok (g', c', ks) /\
    forall s t, at_knot ts 0 <= s -> s <= t -> t <= at_knot ts (length ts - 1) ->
      exists v w, e3_evaluate c' s = Ok (Some v) /\ e3_evaluate c' t = Ok (Some w) /\ coord a v <= coord a w.
Proof.
  intros debug g c F ts ps a d0 d1 out Hc Hz Hl H2 Hi Hg HG HF D0 D1.
  destruct (e3_fit_spec debug g c ts ps d0 d1 out Hc Hz Hl Hi Hg) as (x & ks & E & _ & [Hx _] & Hcon).
  do 3 eexists. split; [exact E|].
  apply (forward_up x ts ps d0 d1 a Hx Hcon (gradual_velocities F ts ps a d0 d1 Hi H2 HG HF D0 D1) (length ts - 1)); lia.
Qed.

(** fitCurve, at rest at both ends. *)
Theorem C128_fit_at_rest : forall debug g (c : e3_curve R) F ts ps a out,
  consistent c -> e3_size c = 0%nat -> length ts = length ps -> (2 <= length ts)%nat -> increasing_times ts ->
  (g + N.of_nat (length ts) < 2 ^ 64)%N -> gradual F a ts ps -> F <= 3 \/ (F <= 5 /\ same_steps ts) ->
  exists g' c' ks, e3_fit debug g c ts ps out = Ok (g', c', ks) /\
    forall s t, at_knot ts 0 <= s -> s <= t -> t <= at_knot ts (length ts - 1) ->
      exists v w, e3_evaluate c' s = Ok (Some v) /\ e3_evaluate c' t = Ok (Some w) /\ coord a v <= coord a w.
Proof.
  intros debug g c F ts ps a out Hc Hz Hl H2 Hi Hg HG HF. unfold e3_fit.
  assert (Z : coord a vzero = 0) by (now destruct a). pose proof (proj1 HG 0%nat ltac:(lia)). pose proof (proj1 HG (length ts - 2)%nat ltac:(lia)).
  apply (C128_fit debug g c F); auto; rewrite Z; lra.
Qed.

(** Positions of SE3 curves, whatever the orientations. *)
Theorem C128_se3_fit : forall K g (c : se3_curve R) F ts vs a d0 d1 out,
  length ts = length vs -> (2 <= length ts)%nat -> increasing_times ts -> (g + N.of_nat (length ts) < 2 ^ 64)%N ->
  gradual F a ts (map p_pos vs) -> F <= 3 \/ (F <= 5 /\ same_steps ts) ->
  0 <= coord a (t_lin d0) <= 3 * mean_velocity a ts (map p_pos vs) 0 -> 0 <= coord a (t_lin d1) <= 3 * mean_velocity a ts (map p_pos vs) (length ts - 2) ->
  exists g' c' ks, se3_fit_with_derivatives K g c ts vs d0 d1 out = Ok (g', c', ks) /\
    forall s t, at_knot ts 0 <= s -> s <= t -> t <= at_knot ts (length ts - 1) ->
      exists v w, se3_evaluate K c' s = Ok (Some v) /\ se3_evaluate K c' t = Ok (Some w) /\ coord a (p_pos v) <= coord a (p_pos w).
Proof.
  intros K g c F ts vs a d0 d1 out Hl H2 Hi Hg HG HF D0 D1.
  destruct (se3_fit_R K g c ts vs d0 d1 out Hl Hi Hg) as (x & ks & E & Hx & Ex).
  do 3 eexists. split; [exact E|]. intros s t A B C.
  destruct (forward_up (translation x) ts (map p_pos vs) (t_lin d0) (t_lin d1) a Hx Ex (gradual_velocities F ts _ a _ _ Hi H2 HG HF D0 D1) (length ts - 1) ltac:(lia) ltac:(lia) s t A B C)
    as (p & q & Ep & Eq & Q).
  rewrite (translation_evaluate K) in Ep, Eq. unfold on_value in Ep, Eq.
  destruct (se3_evaluate K x s) as [[p'|]| | |] eqn:Fp; try discriminate. destruct (se3_evaluate K x t) as [[q'|]| | |] eqn:Fq; try discriminate.
  exists p', q'. split; [reflexivity|]. split; [reflexivity|]. replace (p_pos p') with p by congruence. now replace (p_pos q') with q by congruence.
Qed.

(** Five is the most that equal steps allow: with any larger factor [F], a curve whose points only ever advance turns back. *)
Theorem C128_factor_refuted : forall F, 5 < F ->
  let ps := [V3 0 0 0; V3 F 0 0; V3 (F + 1) 0 0; V3 (F + 1 + F) 0 0] in
  gradual F AX [0; 1; 2; 3] ps /\ same_steps [0; 1; 2; 3] /\
  exists g' (c' : e3_curve R) ks v w, e3_fit true 0 e3_new [0; 1; 2; 3] ps [] = Ok (g', c', ks) /\
    exists s t, 1 <= s < t /\ t <= 2 /\ e3_evaluate c' s = Ok (Some v) /\ e3_evaluate c' t = Ok (Some w) /\ coord AX w < coord AX v.
Proof.
  intros F H5 ps. split; [|split].
  - split.
    + intros [|[|[|i]]] L; unfold mean_velocity, ps; cbn in *; [| | |lia]; apply Rmult_le_pos; try lra; left; apply Rinv_0_lt_compat; lra.
    + intros [|[|i]] L; unfold mean_velocity, ps; cbn in *; [| |lia]; split; apply Rminus_le_0; field_simplify; nra.
  - intros [|[|i]] L; cbn in *; [lra|lra|lia].
  - unfold e3_fit.
    destruct (e3_fit_spec true 0 e3_new ts4 ps vzero vzero [] consistent_empty eq_refl eq_refl ts4_increasing eq_refl) as (x & ks & E & _ & [Hx _] & Hcon).
    destruct (nth_adjacent _ _ _ _ (fitted_nth x ts4 ps vzero vzero 1 Hcon ltac:(simpl; lia)) (fitted_nth x ts4 ps vzero vzero 2 Hcon ltac:(simpl; lia))) as (u & v & Ec & _).
    (* The velocity halfway is (5 - F) / 4; around it the curve moves back. *)
    set (d := Rmin (1 / 4) ((F - 5) / (8 * F))).
    assert (Pd : 0 < d). { unfold d. apply Rmin_glb_lt; [lra|]. apply Rdiv_lt_0_compat; lra. }
    assert (Ld : d <= 1 / 4) by apply Rmin_l.
    assert (Md : d * (8 * F) <= F - 5).
    { apply Rle_trans with ((F - 5) / (8 * F) * (8 * F)); [apply Rmult_le_compat_r; [lra|apply Rmin_r]|]. apply Req_le. field. lra. }
    do 5 eexists. split; [exact E|]. exists (3 / 2 - d), (3 / 2 + d). split; [lra|]. split; [lra|].
    split; [apply (evaluate_segment x u _ _ _ _ v (3 / 2 - d) Hx Ec); unfold at_knot; simpl; lra|].
    split; [apply (evaluate_segment x u _ _ _ _ v (3 / 2 + d) Hx Ec); unfold at_knot; simpl; lra|].
    rewrite !coord_value. cbn [k_pos k_vel]. rewrite !coord_fit_velocity. unfold catmull_rom, at_knot, hval. simpl.
    apply Rminus_gt_0_lt, Rlt_gt. match goal with |- 0 < ?z => replace z with (d / 2 * (F - 5 - 4 * (F - 1) * (d * d))) by (field) end.
    apply Rmult_lt_0_compat; [lra|]. nra.
Qed.

(** Three is the most that arbitrary steps allow: [F] is any larger factor. *)
Theorem C128_steps_refuted : forall F, 3 < F -> exists ts ps, length ts = length ps /\ increasing_times ts /\ gradual F AX ts ps /\
  exists g' (c' : e3_curve R) ks v w, e3_fit true 0 e3_new ts ps [] = Ok (g', c', ks) /\
    exists s t, at_knot ts 0 <= s < t /\ t <= at_knot ts (length ts - 1) /\ e3_evaluate c' s = Ok (Some v) /\ e3_evaluate c' t = Ok (Some w) /\ coord AX w < coord AX v.
Proof.
  intros F H3. set (L := 4 / (F - 3)). assert (PL : 0 < L) by (apply Rdiv_lt_0_compat; lra).
  assert (EL : L * (F - 3) = 4) by (unfold L; field; lra).
  set (ts := [0; L; L + 1; L + 1 + L]). set (ps := [V3 0 0 0; V3 (F * L) 0 0; V3 (F * L + 1) 0 0; V3 (F * L + 1 + F * L) 0 0]).
  assert (Hi : increasing_times ts) by (intros [|[|[|i]]] Q; unfold at_knot, ts; simpl in *; [lra|lra|lra|lia]).
  assert (M0 : mean_velocity AX ts ps 0 = F) by (unfold mean_velocity, ts, ps; cbn; field; lra).
  assert (M1 : mean_velocity AX ts ps 1 = 1) by (unfold mean_velocity, ts, ps; cbn; field; lra).
  assert (M2 : mean_velocity AX ts ps 2 = F) by (unfold mean_velocity, ts, ps; cbn; field; lra).
  exists ts, ps. split; [reflexivity|]. split; [exact Hi|]. split.
  - split.
    + intros [|[|[|i]]] Q; [rewrite M0; lra|rewrite M1; lra|rewrite M2; lra|cbn in Q; lia].
    + intros [|[|i]] Q; [rewrite M0, M1|rewrite M1, M2|cbn in Q; lia]; split; nra.
  - unfold e3_fit.
    destruct (e3_fit_spec true 0 e3_new ts ps vzero vzero [] consistent_empty eq_refl eq_refl Hi eq_refl) as (x & ks & E & _ & [Hx _] & Hcon).
    destruct (nth_adjacent _ _ _ _ (fitted_nth x ts ps vzero vzero 1 Hcon ltac:(simpl; lia)) (fitted_nth x ts ps vzero vzero 2 Hcon ltac:(simpl; lia))) as (u & v & Ec & _).
    set (m := (F * L + 1) / (L + 1)). assert (Em : m * (L + 1) = F * L + 1) by (unfold m; field; lra).
    assert (Pm : 3 < m) by (apply (Rmult_lt_reg_r (L + 1)); lra).
    set (d := Rmin (1 / 4) ((m - 3) / (8 * m))).
    assert (Pd : 0 < d). { unfold d. apply Rmin_glb_lt; [lra|]. apply Rdiv_lt_0_compat; lra. }
    assert (Ld : d <= 1 / 4) by apply Rmin_l.
    assert (Md : d * (8 * m) <= m - 3).
    { apply Rle_trans with ((m - 3) / (8 * m) * (8 * m)); [apply Rmult_le_compat_r; [lra|apply Rmin_r]|]. apply Req_le. field. lra. }
    do 5 eexists. split; [exact E|]. exists (L + 1 / 2 - d), (L + 1 / 2 + d). split; [unfold at_knot, ts; simpl; lra|]. split; [unfold at_knot, ts; simpl; lra|].
    split; [apply (evaluate_segment x u _ _ _ _ v (L + 1 / 2 - d) Hx Ec); unfold at_knot, ts; simpl; lra|].
    split; [apply (evaluate_segment x u _ _ _ _ v (L + 1 / 2 + d) Hx Ec); unfold at_knot, ts; simpl; lra|].
    rewrite !coord_value. cbn [k_pos k_vel]. rewrite !coord_fit_velocity. unfold catmull_rom, at_knot, hval. simpl.
    apply Rminus_gt_0_lt, Rlt_gt. match goal with |- 0 < ?z => replace z with (d * (m - 3 - 4 * (m - 1) * (d * d))) by (unfold m; field; lra) end.
    apply Rmult_lt_0_compat; [lra|].
    assert (4 * (m - 1) * (d * d) <= 4 * m * (d * (1 / 4))) by (apply Rmult_le_compat; [lra|apply Rmult_le_pos; lra|lra|apply Rmult_le_compat_l; lra]). lra.
Qed.

Example C128_example : gradual 3 AX [0; 1; 3; 4] [V3 0 0 0; V3 1 0 0; V3 7 0 0; V3 8 5 0] /\
  0 <= coord AX (V3 2 (-1) 0) <= 3 * mean_velocity AX [0; 1; 3; 4] [V3 0 0 0; V3 1 0 0; V3 7 0 0; V3 8 5 0] 0 /\ increasing_times [0; 1; 3; 4].
Proof.
  split; [|split].
  - split.
    + intros [|[|[|i]]] L; unfold mean_velocity; cbn in *; [| | |lia]; lra.
    + intros [|[|i]] L; unfold mean_velocity; cbn in *; [| |lia]; lra.
  - unfold mean_velocity; cbn; lra.
  - intros [|[|[|i]]] L; unfold at_knot; simpl in *; [lra|lra|lra|lia].
Qed.
