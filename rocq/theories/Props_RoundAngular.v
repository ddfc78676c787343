(** * C107: rounding errors of the angular velocity of the cubic Hermite SE3 curve *)

From Coquelicot Require Import Coquelicot.
From Coq Require Import List Bool Arith NArith ZArith Reals Lra Lia Sorting.Sorted.
From Flocq Require Import Core IEEE754.BinarySingleNaN.
From Verif Require Import Base TimeOrder TimeB64 TimeInst KeyGen Manager ManagerSpec ManagerProofs ManagerProofs2
  Num NumB64 Sampling HermiteE3 HermiteSpec HermiteE3Proofs HermiteB64 HermiteErr Props_Binary64 Props_Rounding
  Quat QuatSpec QuatProofs QuatDist QuatErr QuatLog HermiteSE3 HermiteSE3Spec HermiteSE3Proofs Props_HermiteSE3
  Props_RoundSE3 Props_HalfTurn.
Import ListNotations.
Local Open Scope R_scope.

Local Notation u := (bpow radix2 (-53)).

(** ** Sums and multiples *)

Lemma qnear_add a b A B e f s r : qnear a A e -> qnear b B f -> qnorm A <= s -> qnorm B <= r ->
  e <= s / 10 -> f <= r / 10 -> 0 < s -> 0 < r -> middling (s + r) ->
  qnear (qadd a b) (qadd A B) (e + f + 3 * u * (s + r)).
Proof.
  intros Ha Hb NA NB He Hf Ps Pr Hm. pose proof (qnear_norm _ _ _ Ha) as Na. pose proof (qnear_norm _ _ _ Hb) as Nb.
  pose proof u_small as U. destruct Ha as [(A1 & A2 & A3 & A4) Da], Hb as [(B1 & B2 & B3 & B4) Db].
  destruct (qcomponents (real_quat a)) as (C1 & C2 & C3 & C4). destruct (qcomponents (real_quat b)) as (D1 & D2 & D3 & D4).
  cbn [real_quat qw qx qy qz] in C1, C2, C3, C4, D1, D2, D3, D4.
  assert (T : forall x y, is_finite x = true -> is_finite y = true -> Rabs (B2R x) <= qnorm (real_quat a) ->
    Rabs (B2R y) <= qnorm (real_quat b) ->
    is_finite (nadd x y) = true /\ Rabs (B2R (nadd x y) - (B2R x + B2R y)) <= 112 / 100 * u * (s + r)).
  { intros x y Fx Fy Bx By. assert (N : near (nadd x y) (B2R x + B2R y) (112 / 100) (s + r)).
    { eapply do_add with (B := 11 / 10); [apply near_val, finite_val, Fx|apply near_val, finite_val, Fy| |exact Hm|repeat split; lra].
      eapply Rle_trans; [apply Rabs_triang|]. lra. }
    exact N. }
  destruct (T _ _ A1 B1 C1 D1) as [T1 E1], (T _ _ A2 B2 C2 D2) as [T2 E2], (T _ _ A3 B3 C3 D3) as [T3 E3], (T _ _ A4 B4 C4 D4) as [T4 E4].
  split; [repeat split; assumption|].
  assert (P0 : 0 <= u * (s + r)) by (apply Rmult_le_pos; lra).
  eapply Rle_trans; [apply (qdist_triangle _ (qadd (real_quat a) (real_quat b)))|].
  assert (X : qdist (real_quat (qadd a b)) (qadd (real_quat a) (real_quat b)) <= 2 * (112 / 100 * u * (s + r))).
  { apply qdist_components; [lra|exact E1|exact E2|exact E3|exact E4]. }
  assert (Y : qdist (qadd (real_quat a) (real_quat b)) (qadd A B) <= qdist (real_quat a) A + qdist (real_quat b) B).
  { unfold qdist. eapply Rle_trans; [|apply qnorm_triangle]. right. f_equal. unfold qminus, qadd. cbn [qw qx qy qz]. numR. f_equal; ring. }
  lra.
Qed.

Lemma qnorm_qscale A X : qnorm (qscale A X) = Rabs X * qnorm A.
Proof.
  unfold qnorm, qscale. cbn [qw qx qy qz]. numR. rewrite <- sqrt_Rsqr_abs, <- sqrt_mult_alt by apply Rle_0_sqr.
  f_equal. unfold Rsqr. ring.
Qed.

Lemma qnear_qscale a A e s (x : b64) D : qnear a A e -> qnorm A <= s -> e <= s / 10 -> 0 < s -> 0 < D -> middling (s * / D) ->
  near x (/ D) 3 (/ D) -> qnear (qscale a x) (qscale A (/ D)) ((e + 6 * u * s) / D).
Proof.
  intros Ha NA He Ps PD Hm [Fx Ex]. pose proof (qnear_norm _ _ _ Ha) as Na. pose proof u_small as U.
  destruct Ha as [(A1 & A2 & A3 & A4) Da]. assert (PI : 0 < / D) by now apply Rinv_0_lt_compat.
  destruct (qcomponents (real_quat a)) as (C1 & C2 & C3 & C4). cbn [real_quat qw qx qy qz] in C1, C2, C3, C4.
  assert (Bx : Rabs (B2R x) <= 11 / 10 * / D).
  { replace (B2R x) with ((B2R x - / D) + / D) by ring. eapply Rle_trans; [apply Rabs_triang|]. rewrite (Rabs_pos_eq (/ D)) by lra. nra. }
  assert (T : forall y, is_finite y = true -> Rabs (B2R y) <= qnorm (real_quat a) ->
    is_finite (nmul y x) = true /\ Rabs (B2R (nmul y x) - B2R y * B2R x) <= 123 / 100 * u * (s * / D)).
  { intros y Fy By. destruct (term s (/ D) Ps PI Hm y x) as [T _]; [split; [auto|lra]|split; auto|]. exact T. }
  destruct (T _ A1 C1) as [T1 E1], (T _ A2 C2) as [T2 E2], (T _ A3 C3) as [T3 E3], (T _ A4 C4) as [T4 E4].
  assert (P0 : 0 <= u * (s * / D)) by (apply Rmult_le_pos; [lra|apply Rmult_le_pos; lra]).
  split; [repeat split; assumption|].
  eapply Rle_trans; [apply (qdist_triangle _ (qscale (real_quat a) (B2R x)))|].
  assert (X : qdist (real_quat (qscale a x)) (qscale (real_quat a) (B2R x)) <= 2 * (123 / 100 * u * (s * / D))).
  { apply qdist_components; [lra|exact E1|exact E2|exact E3|exact E4]. }
  assert (Y : qdist (qscale (real_quat a) (B2R x)) (qscale A (/ D)) <=
    Rabs (B2R x - / D) * qnorm (real_quat a) + / D * qdist (real_quat a) A).
  { rewrite <- qnorm_qscale. replace (/ D * qdist (real_quat a) A) with (qnorm (qscale (qminus (real_quat a) A) (/ D)))
      by (rewrite qnorm_qscale, Rabs_pos_eq by lra; reflexivity).
    eapply Rle_trans; [|apply qnorm_triangle]. unfold qdist. right. f_equal. unfold qminus, qadd, qscale. cbn [qw qx qy qz]. numR. f_equal; ring. }
  assert (Z1 : Rabs (B2R x - / D) * qnorm (real_quat a) <= 3 * u * / D * (11 / 10 * s)).
  { apply Rmult_le_compat; auto using Rabs_pos, qnorm_pos. lra. }
  assert (Z2 : / D * qdist (real_quat a) A <= / D * e) by (apply Rmult_le_compat_l; lra).
  unfold Rdiv. nra.
Qed.

(** A factor up to [m]. *)
Lemma vnear_scale_by (x : b64) (X m : R) v V e w : near x X 60 1 -> 0 <= X <= m -> 1 <= m <= 3 -> vnear v V e -> vnorm V + e <= 11 / 10 * w ->
  0 < w -> 0 <= e -> middling (m * w) -> vnear (vscale x v) (vscale X V) (m * e + 80 * u * w).
Proof.
  intros [Fx Ex] HX Hm1 Hv Hn Pw He Hm. pose proof (vnear_norm _ _ _ Hv) as Nv. destruct Hv as [(F1 & F2 & F3) Dv].
  pose proof u_small as U. destruct (vcomponents (real_vec v)) as (C1 & C2 & C3). cbn [real_vec vx vy vz] in C1, C2, C3.
  assert (Bx : Rabs (B2R x) <= 11 / 10 * m).
  { replace (B2R x) with ((B2R x - X) + X) by ring. eapply Rle_trans; [apply Rabs_triang|]. rewrite (Rabs_pos_eq X) by lra. lra. }
  assert (T : forall y, is_finite y = true -> Rabs (B2R y) <= vnorm (real_vec v) ->
    is_finite (nmul x y) = true /\ Rabs (B2R (nmul x y) - B2R x * B2R y) <= 123 / 100 * u * (m * w)).
  { intros y Fy By. destruct (term m w ltac:(lra) Pw Hm x y) as [T _]; [split; auto|split; [auto|lra]|]. exact T. }
  destruct (T _ F1 C1) as [T1 E1], (T _ F2 C2) as [T2 E2], (T _ F3 C3) as [T3 E3].
  assert (P0 : 0 <= u * w) by (apply Rmult_le_pos; lra).
  assert (P1 : u * (m * w) <= 3 * (u * w)) by nra. assert (P2 : 0 <= u * (m * w)) by nra.
  split; [repeat split; assumption|].
  eapply Rle_trans; [apply (vdist_triangle _ (vscale (B2R x) (real_vec v)))|].
  assert (D1 : vdist (real_vec (vscale x v)) (vscale (B2R x) (real_vec v)) <= 2 * (123 / 100 * u * (m * w))).
  { apply vdist_components; [lra|exact E1|exact E2|exact E3]. }
  pose proof (vdist_scale (B2R x) (real_vec v) X V) as D2. rewrite (Rabs_pos_eq X) in D2 by lra.
  assert (D3 : Rabs (B2R x - X) * vnorm (real_vec v) <= 60 * u * 1 * (11 / 10 * w)).
  { apply Rmult_le_compat; auto using Rabs_pos, vnorm_pos. lra. }
  assert (D4 : X * vdist (real_vec v) V <= m * e) by (apply Rmult_le_compat; auto using vdist_pos; lra).
  lra.
Qed.

(** ** The weights and their derivatives *)

Section Weights.
Variables (alpha : b64) (x : R).
Hypothesis Hal : near alpha x (33 / 10) 1.
Hypothesis Hx : 0 <= x <= 1.
Let rest := nsub (nofZ 1) alpha.

Lemma rest_near : near rest (1 - x) (44 / 10) 1.
Proof.
  eapply do_sub with (B := 1) (k := 0) (l := 33 / 10); [nint 1%Z|exact Hal| |exact middling_one|fit]. apply abs_between. lra.
Qed.
Lemma rest_2 : near (nmul rest rest) ((1 - x) * (1 - x)) 10 1.
Proof. eapply do_mul with (A := 1) (B := 1); try exact rest_near; try exact middling_one; try lra; apply abs_between; lra. Qed.
Lemma rest_2_range : 0 <= (1 - x) * (1 - x) <= 1. Proof. split; nra. Qed.
Lemma rest_3 : near (nmul rest (nmul rest rest)) ((1 - x) * ((1 - x) * (1 - x))) 16 1.
Proof.
  pose proof rest_2_range. eapply do_mul with (A := 1) (B := 1); [exact rest_near|exact rest_2| | |exact middling_one|lra|lra|lra|fit]; apply abs_between; lra.
Qed.

Lemma near_beta1 : near (nsub (nofZ 1) (nmul rest (nmul rest rest))) (1 - (1 - x) * ((1 - x) * (1 - x))) 60 1 /\
  0 <= 1 - (1 - x) * ((1 - x) * (1 - x)) <= 1.
Proof.
  pose proof rest_2_range as R2. assert (R3 : 0 <= (1 - x) * ((1 - x) * (1 - x)) <= 1) by (split; nra). split; [|lra].
  eapply do_sub with (B := 1) (k := 0) (l := 16); [nint 1%Z|exact rest_3| |exact middling_one|fit]. apply abs_between. lra.
Qed.
Lemma near_dbeta1 : near (nmul (nofZ 3) (nmul rest rest)) (3 * ((1 - x) * (1 - x))) 60 1 /\ 0 <= 3 * ((1 - x) * (1 - x)) <= 3.
Proof.
  pose proof rest_2_range as R2. split; [|lra]. eapply (near_times 3); [exact rest_2|lra|lia|lra|lra].
Qed.
Lemma near_beta2 : near (nsub (nmul (nofZ 3) (nmul alpha alpha)) (nmul (nofZ 2) (nmul (nmul alpha alpha) alpha)))
  (3 * (x * x) - 2 * (x * x * x)) 60 1 /\ 0 <= 3 * (x * x) - 2 * (x * x * x) <= 1.
Proof.
  pose proof (x2_range x Hx). pose proof (x3_range x Hx). pose proof (beta0_range x Hx) as B. split; [|lra].
  eapply do_sub with (B := 1) (k := 262 / 10) (l := 263 / 10); [| | |exact middling_one|fit].
  - eapply (near_times 3); [eapply near_x2; eauto|lra|lia|lra|lra].
  - eapply (near_times 2); [eapply near_x3; eauto|lra|lia|lra|lra].
  - apply abs_between. lra.
Qed.
Lemma near_dbeta2 : near (nmul (nmul (nofZ 6) alpha) rest) (6 * x * (1 - x)) 60 1 /\ 0 <= 6 * x * (1 - x) <= 3 / 2.
Proof.
  split; [|split; [nra|]].
  - eapply do_mul with (A := 6) (B := 1) (k := 259 / 10) (l := 44 / 10) (s := 1) (r := 1);
      [|exact rest_near|apply abs_between; lra|apply abs_between; lra|exact middling_one|lra|lra|lra|fit].
    eapply (near_times 6); [exact Hal|lra|lia|lra|lra].
  - assert (0 <= (2 * x - 1) * (2 * x - 1)) by apply Rle_0_sqr. lra.
Qed.
Lemma near_dbeta3 : near (nmul (nofZ 3) (nmul alpha alpha)) (3 * (x * x)) 60 1 /\ 0 <= 3 * (x * x) <= 3.
Proof.
  pose proof (x2_range x Hx). split; [|lra]. eapply (near_times 3); [eapply near_x2; eauto|lra|lia|lra|lra].
Qed.
End Weights.

(** ** One segment *)

Lemma mul_after a b A B e f r m : qnear a A e -> qnear b B f -> qnorm A = 1 -> qnorm B <= r -> e <= 1 / 10 -> f <= r / 10 -> 0 < r ->
  middling r -> e * (r + f) + f + 32 * u * r <= m -> qnear (qmul a b) (qmul A B) m /\ qnorm (qmul A B) <= r.
Proof.
  intros Ha Hb NA NB He Hf Pr Hm Hl. split; [|rewrite qnorm_mul, NA; lra]. eapply qnear_weaken.
  - eapply (qnear_mul a b A B e f 1 r); eauto; try lra. now rewrite Rmult_1_l.
  - lra.
Qed.

Lemma mul_before a b A B e f s m : qnear a A e -> qnear b B f -> qnorm A <= s -> qnorm B = 1 -> e <= s / 10 -> f <= 1 / 10 -> 0 < s ->
  middling s -> e * (1 + f) + s * f + 32 * u * s <= m -> qnear (qmul a b) (qmul A B) m /\ qnorm (qmul A B) <= s.
Proof.
  intros Ha Hb NA NB He Hf Pr Hm Hl. split; [|rewrite qnorm_mul, NB; lra]. eapply qnear_weaken.
  - eapply (qnear_mul a b A B e f s 1); eauto; try lra. now rewrite Rmult_1_r.
  - lra.
Qed.

Lemma middling_over D s : moderate D -> / 1024 <= s <= 1024 -> middling (s * / D).
Proof.
  intros [L U] Hs. assert (P : 0 < D) by (eapply Rlt_le_trans; [apply bpow_gt_0|exact L]).
  assert (I1 : / D <= bpow radix2 200).
  { replace (bpow radix2 200) with (/ bpow radix2 (-200)) by (rewrite <- bpow_opp; reflexivity). apply Rinv_le; [apply bpow_gt_0|exact L]. }
  assert (I2 : bpow radix2 (-200) <= / D).
  { replace (bpow radix2 (-200)) with (/ bpow radix2 200) by (rewrite <- bpow_opp; reflexivity). apply Rinv_le; assumption. }
  pose proof (bpow_gt_0 radix2 (-200)) as P2. split.
  - apply Rle_trans with (bpow radix2 (-10) * bpow radix2 (-200)).
    + rewrite <- bpow_plus. apply bpow_le. lia.
    + apply Rmult_le_compat; try apply bpow_ge_0; [simpl; lra|exact I2].
  - apply Rle_trans with (bpow radix2 10 * bpow radix2 200).
    + apply Rmult_le_compat; [lra|lra|simpl; lra|exact I1].
    + rewrite <- bpow_plus. apply bpow_le. lia.
Qed.

Section Spin.
Variables (K : kindr b64) (K' : kindr R) (ta tb t : b64) (ka kb : pose b64 * twist b64).
Hypothesis Fa : is_finite ta = true.
Hypothesis Fb : is_finite tb = true.
Hypothesis Ft : is_finite t = true.
Let D := B2R tb - B2R ta.
Hypothesis HD : moderate D.
Hypothesis Ht : B2R ta <= B2R t <= B2R tb.
Hypothesis Wa : finite_vec (t_ang (snd ka)).
Hypothesis Wb : finite_vec (t_ang (snd kb)).
Hypothesis Ba : vnorm (real_vec (t_ang (snd ka))) * D <= 16.
Hypothesis Bb : vnorm (real_vec (t_ang (snd kb))) * D <= 16.
Variables e L : R.
Let g := e + bpow radix2 (-46).
Hypothesis He : 0 <= e <= / 2000.
Hypothesis HL : 0 <= L.
Hypothesis Hg : L * g <= / 1000.
Hypothesis Qa : near_unit e (p_rot (fst ka)).
Hypothesis Qb : near_unit e (p_rot (fst kb)).
Hypothesis HK : accurate_exp e K.
Hypothesis HK' : forall v, k_exp K' v = qexp v.
Hypothesis HS : stable_log e L (17 * g) K K' (remaining_turn (B2R ta) (B2R tb) (real_coef ka) (real_coef kb)).

Lemma one_over : near (ndiv (nofZ 1) (nsub tb ta)) (/ D) 3 (/ D).
Proof.
  pose proof (moderate_pos _ HD) as P. replace (/ D) with (1 / D) by (field; lra).
  assert (M : middling (1 / D)) by (apply (middling_over D 1 HD); lra).
  eapply near_weaken; [left; now apply middling_pos| |].
  - apply (near_div _ _ 1 0 (11 / 10) 1 1 D); auto; try lra.
    + nint 1%Z.
    + apply length_near; assumption.
    + rewrite Rabs_R1. lra.
  - lra.
Qed.

(** The quaternion [qDiff]. *)
Lemma qdiff_accuracy :
  qnear (se3_segment_qdiff K ta tb ka kb t)
    (se3_segment_qdiff K' (B2R ta) (B2R tb) (real_coef ka) (real_coef kb) (B2R t)) ((950 + 460 * L) * g / D) /\
  qnorm (se3_segment_qdiff K' (B2R ta) (B2R tb) (real_coef ka) (real_coef kb) (B2R t)) <= 48 * / D.
Proof.
  pose proof (moderate_pos _ HD) as P. assert (PI : 0 < / D) by now apply Rinv_0_lt_compat.
  pose proof u_small as U. pose proof (other_third_near ta tb Fa Fb HD) as Hth. fold D in Hth.
  replace (1 / 3 * D) with (D / 3) in Hth by field. set (third := nmul (ndiv (nofZ 1) (nofZ 3)) (nsub tb ta)) in Hth.
  destruct (exact_w ta tb HD e He third ka Hth Wa Ba Qa) as [V1 N1], (exact_w ta tb HD e He third kb Hth Wb Bb Qb) as [V3 N3].
  destruct (exact_log K K' ta tb ka kb HD Wa Wb Ba Bb e L He Qa Qb HK HS third Hth) as (d & Hd0 & Hd & V2). fold g in Hd.
  destruct HS as [N2 _]. destruct (here_alpha ta tb t Fa Fb Ft HD Ht) as [Al Hx]. fold D in Al, Hx.
  set (x := (B2R t - B2R ta) / D) in *. set (alpha := ndiv (nsub t ta) (nsub tb ta)) in *.
  assert (Z0 : 0 <= L * d <= 17 * (L * g)) by (split; [nra|replace (17 * (L * g)) with (L * (17 * g)) by ring; now apply Rmult_le_compat_l]).
  set (z := L * d) in *. assert (Z1 : 0 <= z <= 17 / 1000) by lra.
  assert (M6 : middling 6) by (apply middling_between; lra). assert (M9 : middling 9) by (apply middling_between; lra).
  assert (M18 : middling 18) by (apply middling_between; lra). assert (M12 : middling 12) by (apply middling_between; lra).
  set (W1 := body_turn (B2R ta) (B2R tb) (real_coef ka)) in *. set (W3 := body_turn (B2R ta) (B2R tb) (real_coef kb)) in *.
  set (W2 := k_log K' (remaining_turn (B2R ta) (B2R tb) (real_coef ka) (real_coef kb))) in *.
  destruct (near_beta1 alpha x Al Hx) as [Y1 G1]. destruct (near_dbeta1 alpha x Al Hx) as [Y1' G1'].
  destruct (near_beta2 alpha x Al Hx) as [Y2 G2]. destruct (near_dbeta2 alpha x Al Hx) as [Y2' G2'].
  pose proof (near_weight3 alpha x Al Hx) as Y3. pose proof (weight3_range x Hx) as G3. destruct (near_dbeta3 alpha x Al Hx) as [Y3' G3'].
  set (omx := 1 - x) in *. set (rest := nsub (nofZ 1) alpha) in *.
  set (b1 := 1 - omx * (omx * omx)) in *. set (b1' := 3 * (omx * omx)) in *. set (b2 := 3 * (x * x) - 2 * (x * x * x)) in *.
  set (b2' := 6 * x * omx) in *. set (b3 := x * x * x) in *. set (b3' := 3 * (x * x)) in *.
  pose proof (vnear_scale _ _ _ _ _ 6 Y1 G1 V1 ltac:(lra) ltac:(lra) M6) as S1.
  pose proof (vnear_scale _ _ _ _ _ 9 Y2 G2 V2 ltac:(lra) ltac:(lra) M9) as S2.
  pose proof (vnear_scale _ _ _ _ _ 6 Y3 G3 V3 ltac:(lra) ltac:(lra) M6) as S3.
  assert (MA : middling (3 * 6)) by (apply middling_between; lra). assert (MB : middling (3 / 2 * 9)) by (apply middling_between; lra).
  pose proof (vnear_scale_by _ _ 3 _ _ _ 6 Y1' G1' ltac:(lra) V1 ltac:(lra) ltac:(lra) ltac:(lra) MA) as A1.
  pose proof (vnear_scale_by _ _ (3 / 2) _ _ _ 9 Y2' G2' ltac:(lra) V2 ltac:(lra) ltac:(lra) ltac:(lra) MB) as A2.
  pose proof (vnear_scale_by _ _ 3 _ _ _ 6 Y3' G3' ltac:(lra) V3 ltac:(lra) ltac:(lra) ltac:(lra) MA) as A3.
  assert (C1 : qnorm (qpure (vscale b1' W1)) <= 18).
  { rewrite qnorm_pure, vnorm_scale, Rabs_pos_eq by lra. pose proof (vnorm_pos W1). nra. }
  assert (C2 : qnorm (qpure (vscale b2' W2)) <= 12).
  { rewrite qnorm_pure, vnorm_scale, Rabs_pos_eq by lra. pose proof (vnorm_pos W2). nra. }
  assert (C3 : qnorm (qpure (vscale b3' W3)) <= 18).
  { rewrite qnorm_pure, vnorm_scale, Rabs_pos_eq by lra. pose proof (vnorm_pos W3). nra. }
  apply vnear_pure in A1, A2, A3.
  assert (A1' := qnear_weaken _ _ _ (375 / 10 * e + 1800 * u) A1 ltac:(lra)).
  assert (A2' := qnear_weaken _ _ _ (15 / 10 * e + 720 * u + 15 / 10 * z) A2 ltac:(lra)).
  assert (A3' := qnear_weaken _ _ _ (375 / 10 * e + 1800 * u) A3 ltac:(lra)). clear A1 A2 A3.
  pose proof (vscale_norm _ W1 G1) as B1. pose proof (vscale_norm _ W2 G2) as B2. pose proof (vscale_norm _ W3 G3) as B3.
  pose proof (exact_exp K e HK _ _ _ S1 ltac:(lra)) as E1. pose proof (exact_exp K e HK _ _ _ S2 ltac:(lra)) as E2.
  pose proof (exact_exp K e HK _ _ _ S3 ltac:(lra)) as E3.
  pose proof (normalised_near _ _ Qa ltac:(lra)) as Na. pose proof (qnorm_unit _ (normalised_unit _ _ Qa ltac:(lra))) as Ua.
  assert (ee : 0 <= e * e <= e * / 2000) by (split; [nra|apply Rmult_le_compat_l; lra]).
  assert (eu : 0 <= e * u <= / 2000 * u) by (split; [nra|apply Rmult_le_compat_r; lra]).
  assert (uu : 0 <= u * u <= / 1000000000 * u) by (split; [nra|apply Rmult_le_compat_r; lra]).
  assert (ze : 0 <= e * z <= e * (17 / 1000)) by (split; [nra|apply Rmult_le_compat_l; lra]).
  assert (zu : 0 <= u * z <= u * (17 / 1000)) by (split; [nra|apply Rmult_le_compat_l; lra]).
  assert (zz : 0 <= z * z <= z * (17 / 1000)) by (split; [nra|apply Rmult_le_compat_l; lra]).
  assert (E1' := qnear_weaken _ _ _ (725 / 100 * e + 430 * u) E1 ltac:(lra)).
  assert (E2' := qnear_weaken _ _ _ (15 / 10 * e + / 2 * z + 315 * u) E2 ltac:(lra)).
  assert (E3' := qnear_weaken _ _ _ (725 / 100 * e + 430 * u) E3 ltac:(lra)). clear E1 E2 E3 S1 S2 S3.
  destruct (qnear_unit_mul _ _ _ _ _ _ (826 / 100 * e + 463 * u) Na E1' Ua (qexp_norm _)) as [P1 O1]; [lra|lra|lra|].
  destruct (qnear_unit_mul _ _ _ _ _ _ (99 / 10 * e + 820 * u + 51 / 100 * z) P1 E2' O1 (qexp_norm _)) as [P2 O2]; [lra|lra|lra|].
  destruct (qnear_unit_mul _ _ _ _ _ _ (173 / 10 * e + 1300 * u + 52 / 100 * z) P2 E3' O2 (qexp_norm _)) as [P3 O3]; [lra|lra|lra|].
  destruct (mul_after _ _ _ _ _ _ 18 (187 * e + 10800 * u) P1 A1' O1 C1) as [T1 R1]; [lra|lra|lra|exact M18|lra|].
  destruct (mul_before _ _ _ _ _ _ 18 (217 * e + 17300 * u + 9 * z) T1 E2' R1 (qexp_norm _)) as [T2 R2]; [lra|lra|lra|exact M18|lra|].
  destruct (mul_before _ _ _ _ _ _ 18 (350 * e + 25800 * u + 91 / 10 * z) T2 E3' R2 (qexp_norm _)) as [T3 R3]; [lra|lra|lra|exact M18|lra|].
  destruct (mul_after _ _ _ _ _ _ 12 (122 * e + 11100 * u + 77 / 10 * z) P2 A2' O2 C2) as [T4 R4]; [lra|lra|lra|exact M12|lra|].
  destruct (mul_before _ _ _ _ _ _ 12 (211 * e + 16900 * u + 78 / 10 * z) T4 E3' R4 (qexp_norm _)) as [T5 R5]; [lra|lra|lra|exact M12|lra|].
  destruct (mul_after _ _ _ _ _ _ 18 (351 * e + 26000 * u + 95 / 10 * z) P3 A3' O3 C3) as [T6 R6]; [lra|lra|lra|exact M18|lra|].
  assert (M30 : middling (18 + 12)) by (apply middling_between; lra). assert (M48 : middling (30 + 18)) by (apply middling_between; lra).
  pose proof (qnear_add _ _ _ _ _ _ 18 12 T3 T5 R3 R5 ltac:(lra) ltac:(lra) ltac:(lra) ltac:(lra) M30) as X1.
  pose proof (qnorm_triangle (qmul (qmul (qmul (qmul (normalised (p_rot (fst ka))) (qexp (vscale b1 W1))) (qpure (vscale b1' W1))) (qexp (vscale b2 W2))) (qexp (vscale b3 W3)))
    (qmul (qmul (qmul (qmul (normalised (p_rot (fst ka))) (qexp (vscale b1 W1))) (qexp (vscale b2 W2))) (qpure (vscale b2' W2))) (qexp (vscale b3 W3)))) as J1.
  match type of J1 with qnorm ?q <= _ => set (Q12 := q) in *; assert (J1' : qnorm Q12 <= 30) by lra end.
  pose proof (qnear_add _ _ _ _ _ _ 30 18 X1 T6 J1' R6 ltac:(lra) ltac:(lra) ltac:(lra) ltac:(lra) M48) as X2.
  match type of X2 with qnear _ (qadd _ ?q) _ => pose proof (qnorm_triangle Q12 q) as J2; set (Q3 := q) in * end.
  assert (J3 : qnorm (qadd Q12 Q3) <= 48) by lra.
  pose proof (qnear_qscale _ _ _ 48 _ D X2 J3 ltac:(lra) ltac:(lra) P (middling_over D 48 HD ltac:(lra)) one_over) as X3.
  assert (Eq : se3_segment_qdiff K' (B2R ta) (B2R tb) (real_coef ka) (real_coef kb) (B2R t) = qscale (qadd Q12 Q3) (/ D)).
  { unfold se3_segment_qdiff. rewrite !HK'.
    assert (Et : (#1 / #3 * (B2R tb - B2R ta) = (B2R tb - B2R ta) / 3)%num) by (numR; field). rewrite Et.
    replace (se3_w2 K' ((B2R tb - B2R ta) / 3) (real_coef ka) (real_coef kb)) with W2.
    2:{ unfold W2, se3_w2, remaining_turn. rewrite !HK', !scaled_neg. unfold se3_w1. rewrite !qunrotate_matrix. reflexivity. }
    replace (se3_w1 ((B2R tb - B2R ta) / 3) (real_coef ka)) with W1 by (unfold se3_w1; rewrite qunrotate_matrix; reflexivity).
    replace (se3_w1 ((B2R tb - B2R ta) / 3) (real_coef kb)) with W3 by (unfold se3_w1; rewrite qunrotate_matrix; reflexivity).
    replace (/ D) with (1 / D) by (field; lra). reflexivity. }
  rewrite Eq. split.
  - eapply qnear_weaken; [exact X3|]. unfold Rdiv. apply Rmult_le_compat_r; [lra|].
    replace ((950 + 460 * L) * g) with (950 * g + 460 * (L * g)) by ring. unfold g at 1. rewrite bits7. lra.
  - rewrite qnorm_qscale, Rabs_pos_eq by lra. rewrite Rmult_comm. apply Rmult_le_compat_r; lra.
Qed.

Lemma segment_unit : qnorm (se3_segment_rotation K' (B2R ta) (B2R tb) (real_coef ka) (real_coef kb) (B2R t)) = 1.
Proof.
  unfold se3_segment_rotation. rewrite !HK', !qnorm_mul, !qexp_norm.
  pose proof (qnorm_unit _ (normalised_unit _ _ Qa ltac:(lra))) as Ua. cbn [real_coef fst real_pose p_rot]. rewrite Ua. ring.
Qed.

Lemma spin_accuracy :
  vnear (qrotate (se3_segment_rotation K ta tb ka kb t)
           (qimag (qmul (qconj (se3_segment_rotation K ta tb ka kb t)) (se3_segment_qdiff K ta tb ka kb t))))
    (let q := se3_segment_rotation K' (B2R ta) (B2R tb) (real_coef ka) (real_coef kb) (B2R t) in
     qrotate q (qimag (qmul (qconj q) (se3_segment_qdiff K' (B2R ta) (B2R tb) (real_coef ka) (real_coef kb) (B2R t)))))
    (1900 * (2 + L) * g / D).
Proof.
  pose proof (moderate_pos _ HD) as P. assert (PI : 0 < / D) by now apply Rinv_0_lt_compat. pose proof u_small as U.
  assert (Hg' : L * (e + bpow radix2 (-46)) <= / 200) by (fold g; lra).
  pose proof (segment_accuracy K K' ta tb t ka kb Fa Fb Ft HD Ht Wa Wb Ba Bb e L He HL Hg' Qa Qb HK HK' HS) as A. fold g in A.
  pose proof segment_unit as N. destruct qdiff_accuracy as [B NB]. cbv zeta.
  set (q := se3_segment_rotation K ta tb ka kb t) in *. set (q' := se3_segment_rotation K' _ _ _ _ _) in *.
  set (d := se3_segment_qdiff K ta tb ka kb t) in *. set (d' := se3_segment_qdiff K' _ _ _ _ _) in *.
  set (w := L * g) in *. replace ((18 + 9 * L) * g) with (18 * g + 9 * w) in A by (unfold w; ring).
  replace ((950 + 460 * L) * g / D) with ((950 * g + 460 * w) * / D) in B by (unfold w; field; lra).
  replace (1900 * (2 + L) * g / D) with ((3800 * g + 1900 * w) * / D) by (unfold w; field; lra).
  assert (G : 128 * u <= g <= 5001 / 10000000) by (unfold g; rewrite bits7; lra).
  assert (W : 0 <= w <= / 1000) by (split; [apply Rmult_le_pos; lra|exact Hg]). set (i := / D) in *.
  assert (gg : 0 <= g * g <= g * (5001 / 10000000)) by (split; [nra|apply Rmult_le_compat_l; lra]).
  assert (gw : 0 <= w * g <= w * (5001 / 10000000)) by (split; [nra|apply Rmult_le_compat_l; lra]).
  assert (ww : 0 <= w * w <= w * / 1000) by (split; [nra|apply Rmult_le_compat_l; lra]).
  assert (M : middling (48 * i)) by (apply middling_over; [exact HD|lra]).
  assert (Nc : qnorm (qconj q') = 1) by (now rewrite qnorm_conj).
  destruct (mul_after (qconj q) d (qconj q') d' (18 * g + 9 * w) ((950 * g + 460 * w) * i) (48 * i) ((1850 * g + 905 * w) * i))
    as [S1 R1]; [now apply qnear_conj|exact B|exact Nc|exact NB|lra|nra|lra|exact M| |].
  { replace ((18 * g + 9 * w) * (48 * i + (950 * g + 460 * w) * i) + (950 * g + 460 * w) * i + 32 * u * (48 * i)) with
      (((18 * g + 9 * w) * (48 + (950 * g + 460 * w)) + (950 * g + 460 * w) + 32 * u * 48) * i) by ring.
    apply Rmult_le_compat_r; [lra|]. lra. }
  apply qnear_imag in S1. apply vnear_pure in S1.
  assert (R2 : qnorm (qpure (qimag (qmul (qconj q') d'))) <= 48 * i).
  { rewrite qnorm_pure. eapply Rle_trans; [apply vnorm_imag|exact R1]. }
  destruct (mul_after q _ q' _ (18 * g + 9 * w) ((1850 * g + 905 * w) * i) (48 * i) ((2770 * g + 1370 * w) * i) A S1 N R2)
    as [S3 R3]; [lra|nra|lra|exact M| |].
  { replace ((18 * g + 9 * w) * (48 * i + (1850 * g + 905 * w) * i) + (1850 * g + 905 * w) * i + 32 * u * (48 * i)) with
      (((18 * g + 9 * w) * (48 + (1850 * g + 905 * w)) + (1850 * g + 905 * w) + 32 * u * 48) * i) by ring.
    apply Rmult_le_compat_r; [lra|]. lra. }
  destruct (mul_before _ (qconj q) _ (qconj q') ((2770 * g + 1370 * w) * i) (18 * g + 9 * w) (48 * i) ((3800 * g + 1900 * w) * i) S3
    (qnear_conj _ _ _ A) R3 Nc) as [S4 _]; [nra|lra|lra|exact M| |].
  { replace ((2770 * g + 1370 * w) * i * (1 + (18 * g + 9 * w)) + 48 * i * (18 * g + 9 * w) + 32 * u * (48 * i)) with
      (((2770 * g + 1370 * w) * (1 + (18 * g + 9 * w)) + 48 * (18 * g + 9 * w) + 32 * u * 48) * i) by ring.
    apply Rmult_le_compat_r; [lra|]. lra. }
  unfold qrotate. now apply qnear_imag.
Qed.
End Spin.

(** ** C107 *)

(** The same outcome, with angular velocities at most [e] apart. *)
Definition spins_agree (e : R) (o : outcome (option (twist b64))) (o' : outcome (option (twist R))) : Prop :=
  match o, o' with
  | Ok (Some w), Ok (Some w') => vnear (t_ang w) (t_ang w') e
  | Ok None, Ok None => True
  | UB, UB => True
  | _, _ => False
  end.

(** No segment is shorter than [D]. *)
Definition segments_from (D : R) (c : se3_curve b64) : Prop := forall l ta ka tb kb r,
  contents (h_mgr c) = l ++ (ta, ka) :: (tb, kb) :: r -> D <= B2R tb - B2R ta.

(** The angular velocity computed in double precision is that of the exact curve through the normalised
    knots, up to the error of the knots and of kindr's functions times a factor that depends on the
    conditioning of the logarithm, over the length of the shortest segment; and it is refused alike. *)
Theorem C107_angular : forall (K : kindr b64) (K' : kindr R) (e L D : R) (c : se3_curve b64) (t : b64) (order : N),
  consistent (h_mgr c) -> 0 <= e <= / 2000 -> 0 <= L -> L * (e + bpow radix2 (-46)) <= / 1000 ->
  finite_se3 e c -> calm c -> 0 < D -> segments_from D c -> accurate_exp e K -> (forall v, k_exp K' v = qexp v) ->
  stable_turns e L (17 * (e + bpow radix2 (-46))) K K' c -> is_finite t = true ->
  spins_agree (1900 * (2 + L) * (e + bpow radix2 (-46)) / D)
    (se3_evaluate_derivative K c t order) (se3_evaluate_derivative K' (real_se3 c) (B2R t) order).
Proof.
  intros K K' e L D c t order Hc He HL Hg Hf Hq PD HD HK HK' HS Ft. pose proof (bpow_gt_0 radix2 (-46)) as P46.
  assert (P0 : 0 <= 1900 * (2 + L) * (e + bpow radix2 (-46))) by (apply Rmult_le_pos; lra).
  unfold se3_evaluate_derivative. destruct (N.eqb order 1); [|exact I]. unfold se3_evaluate.
  rewrite (se3_ends e) by assumption. destruct (_ && _).
  - destruct (se3_first_knot c) as [(_ & -> & ->)|(t0 & k & Hi & -> & ->)]; [exact I|]. cbn [bind spins_agree].
    destruct (Hf _ _ Hi) as (_ & _ & W & _). split; [exact W|].
    change (t_ang (snd (real_coef k))) with (real_vec (t_ang (snd k))). rewrite vdist_self. apply Rdiv_le_0_compat; assumption.
  - rewrite (se3_lookup e) by assumption. destruct (get_coefficients_at (h_mgr c) t) as [[n0 n1]|] eqn:E; [|exact I].
    destruct (se3_found e c Hc Hf t n0 n1 Ft E) as (l & r & Ec & B & I0 & I1).
    destruct (Hf _ _ I0) as (F0 & _ & W0 & Q0), (Hf _ _ I1) as (F1 & _ & W1 & Q1).
    destruct (Hq _ _ _ _ _ _ Ec) as (Hm & B0 & B1). pose proof (HD _ _ _ _ _ _ Ec) as Hs.
    cbn [option_map fst snd bind spins_agree p_rot t_ang n_time n_coef real_se3_node].
    eapply vnear_weaken; [apply (spin_accuracy K K' (n_time n0) (n_time n1) t (n_coef n0) (n_coef n1)) with (e := e) (L := L); auto|].
    + eapply HS, Ec.
    + unfold Rdiv. apply Rmult_le_compat_l; [exact P0|]. now apply Rinv_le.
Qed.

(** At every knot, the last one included, it is the stored angular velocity. *)
Theorem C107_knots : forall (K : kindr b64) (K' : kindr R) (e L D : R) (c : se3_curve b64) (t : b64) (k : pose b64 * twist b64),
  consistent (h_mgr c) -> 0 <= e <= / 2000 -> 0 <= L -> L * (e + bpow radix2 (-46)) <= / 1000 ->
  finite_se3 e c -> calm c -> 0 < D -> segments_from D c -> accurate_exp e K -> exact_kindr K' ->
  stable_turns e L (17 * (e + bpow radix2 (-46))) K K' c -> In (t, k) (contents (h_mgr c)) ->
  exists w, se3_evaluate_derivative K c t 1 = Ok (Some w) /\
    vnear (t_ang w) (real_vec (t_ang (snd k))) (1900 * (2 + L) * (e + bpow radix2 (-46)) / D).
Proof.
  intros K K' e L D c t k Hc He HL Hg Hf Hq PD HD HK HK' HS Hi. destruct (Hf _ _ Hi) as (Ft & _ & _ & _).
  pose proof (C107_angular K K' e L D c t 1 Hc He HL Hg Hf Hq PD HD HK (proj1 HK') HS Ft) as A.
  destruct (se3_knot_values K' (real_se3 c) (B2R t) (real_coef k) HK') as (q & _ & _ & _ & E).
  - eapply real_se3_consistent; eauto.
  - intros t' k' Hi'. unfold contents in Hi'. cbn [real_se3 h_mgr nodes] in Hi'. rewrite map_map in Hi'.
    apply in_map_iff in Hi' as (n & En & Hn). injection En as <- <-. cbn [real_coef real_pose fst p_rot].
    destruct (Hf _ _ (node_finite c n Hn)) as (_ & _ & _ & Q). apply (normalised_unit e); [exact Q|lra].
  - unfold contents in *. cbn [real_se3 h_mgr nodes]. rewrite map_map. apply in_map_iff in Hi as (n & En & Hn).
    apply in_map_iff. exists n. split; [|exact Hn]. cbn [real_se3_node n_time n_coef]. congruence.
  - rewrite E in A. destruct (se3_evaluate_derivative K c t 1) as [[w|]| | |]; try contradiction. now exists w.
Qed.

(** With the principal logarithm and segments that stay clear of half turns. *)
Theorem C107_principal : forall (K : kindr b64) (K' : kindr R) (e D : R) (c : se3_curve b64) (t : b64) (order : N),
  consistent (h_mgr c) -> 0 <= e <= / 10000 -> finite_se3 e c -> calm c -> 0 < D -> segments_from D c ->
  accurate_exp e K -> accurate_log e K -> exact_kindr K' -> shortest K' ->
  clear_of_half_turns (34 * (e + bpow radix2 (-46))) c -> is_finite t = true ->
  spins_agree (19000 * (e + bpow radix2 (-46)) / D)
    (se3_evaluate_derivative K c t order) (se3_evaluate_derivative K' (real_se3 c) (B2R t) order).
Proof.
  intros K K' e D c t order Hc He Hf Hq PD HD HE HL HK' HS HC Ft. pose proof bits7 as B. pose proof u_small as U.
  replace (19000 * (e + bpow radix2 (-46))) with (1900 * (2 + 8) * (e + bpow radix2 (-46))) by ring.
  apply C107_angular; auto; try lra; [apply HK'|].
  intros l ta ka tb kb r E. apply principal_stable; auto; try lra.
  - eapply remaining_unit; eauto; lra.
  - now apply (HC l ta ka tb kb r).
Qed.

Example C107_example : exists (K : kindr b64) (K' : kindr R) (e : R) (c : se3_curve b64),
  consistent (h_mgr c) /\ 0 <= e <= / 10000 /\ 8 * (e + bpow radix2 (-46)) <= / 1000 /\ finite_se3 e c /\ calm c /\
  segments_from 2 c /\ accurate_exp e K /\ accurate_log e K /\ exact_kindr K' /\ shortest K' /\
  clear_of_half_turns (34 * (e + bpow radix2 (-46))) c /\ stable_turns e 8 (17 * (e + bpow radix2 (-46))) K K' c.
Proof.
  exists (rounded other_log), std_kindr, (bpow radix2 (-49)), still. pose proof (bpow_gt_0 radix2 (-49)) as P.
  assert (B49 : bpow radix2 (-49) = 16 * u) by (change (-49)%Z with (4 + -53)%Z; rewrite bpow_plus; reflexivity).
  pose proof u_small as U. pose proof bits7 as B46.
  assert (Cl : clear_of_half_turns (34 * (bpow radix2 (-49) + bpow radix2 (-46))) still) by (apply still_clear; lra).
  split; [apply still_contents|]. split; [lra|]. split; [lra|]. split; [apply still_finite; lra|]. split; [apply still_calm|].
  split.
  { intros l ta ka tb kb r E. rewrite (proj2 still_contents) in E. apply two_split in E as [E1 E2].
    apply pair_equal_spec in E1 as [-> ->]. apply pair_equal_spec in E2 as [-> ->]. rewrite !dbl_real by small. lra. }
  split. { intros v F V. eapply qnear_weaken; [apply (rounded_accurate other_log v F V)|apply bpow_le; lia]. }
  split; [apply other_accurate; lra|]. split; [apply std_log_exact|]. split; [apply std_shortest|]. split; [exact Cl|].
  intros l ta ka tb kb r E. apply principal_stable; try lra.
  - apply other_accurate. lra.
  - apply std_log_exact.
  - apply std_shortest.
  - eapply (remaining_unit (bpow radix2 (-49)) still); eauto; [apply still_finite|]; lra.
  - now apply (Cl l ta ka tb kb r).
Qed.
