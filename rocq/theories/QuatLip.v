(** * The logarithm of unit quaternions away from half turns is Lipschitz *)

From Coquelicot Require Import Coquelicot.
From Coq Require Import Reals Lra.
From Verif Require Import Num HermiteE3 HermiteSpec Quat QuatSpec QuatProofs QuatDist QuatLog.
Local Open Scope R_scope.

Lemma sin_above a : 0 <= a <= PI / 2 -> a * cos a <= sin a <= a.
Proof.
  intros Ha. pose proof PI_RGT_0 as P. destruct (proj1 Ha) as [H0|<-]; [|rewrite sin_0; lra].
  split; [|pose proof (sin_lt_x a H0); lra].
  destruct (MVT_gen sin 0 a cos) as (c & Hc & E).
  - intros x _. auto_derive; [exact I|ring].
  - intros x _. apply continuity_pt_filterlim, (ex_derive_continuous sin). auto_derive. exact I.
  - rewrite Rmin_left, Rmax_right in Hc by lra. rewrite sin_0, !Rminus_0_r in E. rewrite E, Rmult_comm.
    apply Rmult_le_compat_r; [lra|]. apply cos_decr_1; lra.
Qed.

(** [a / sin a] between zero and a right angle: grows, and no faster than the cosine falls. *)
Lemma ratio_between a b : 0 < a <= b -> b <= PI / 2 -> 0 <= b / sin b - a / sin a <= cos a - cos b.
Proof.
  intros Hab Hb. pose proof PI_RGT_0 as P.
  assert (Sp : forall x, a <= x <= b -> 0 < sin x) by (intros x Hx; apply sin_gt_0; lra).
  assert (Cp : forall x, a <= x <= b -> 0 <= cos x) by (intros x Hx; apply cos_ge_0; lra).
  assert (D1 : forall x, a <= x <= b -> is_derive (fun x => x / sin x) x ((sin x - x * cos x) / (sin x * sin x))).
  { intros x Hx. pose proof (Sp x Hx). auto_derive; [lra|]. field. lra. }
  assert (D2 : forall x, a <= x <= b -> is_derive (fun x => x / sin x + cos x) x ((sin x - x * cos x) / (sin x * sin x) - sin x)).
  { intros x Hx. pose proof (Sp x Hx). auto_derive; [lra|]. field. lra. }
  split.
  - destruct (MVT_gen (fun x => x / sin x) a b (fun x => (sin x - x * cos x) / (sin x * sin x))) as (c & Hc & E).
    + intros x Hx. rewrite Rmin_left, Rmax_right in Hx by lra. apply D1. lra.
    + intros x Hx. rewrite Rmin_left, Rmax_right in Hx by lra. apply continuity_pt_filterlim, (ex_derive_continuous (fun x => x / sin x)).
      eexists. apply D1. lra.
    + rewrite Rmin_left, Rmax_right in Hc by lra. rewrite E. pose proof (Sp c Hc) as Sc. pose proof (sin_above c ltac:(lra)) as Ac.
      apply Rmult_le_pos; [|lra]. apply Rdiv_le_0_compat; [lra|]. now apply Rmult_lt_0_compat.
  - destruct (MVT_gen (fun x => x / sin x + cos x) a b (fun x => (sin x - x * cos x) / (sin x * sin x) - sin x)) as (c & Hc & E).
    + intros x Hx. rewrite Rmin_left, Rmax_right in Hx by lra. apply D2. lra.
    + intros x Hx. rewrite Rmin_left, Rmax_right in Hx by lra. apply continuity_pt_filterlim, (ex_derive_continuous (fun x => x / sin x + cos x)).
      eexists. apply D2. lra.
    + rewrite Rmin_left, Rmax_right in Hc by lra. pose proof (Sp c Hc) as Sc. pose proof (Cp c Hc) as Cc.
      pose proof (sin_above c ltac:(lra)) as Ac.
      assert (N : (sin c - c * cos c) / (sin c * sin c) - sin c <= 0).
      { replace ((sin c - c * cos c) / (sin c * sin c) - sin c) with (- (cos c * (c - sin c * cos c)) / (sin c * sin c)).
        - apply Rmult_le_reg_r with (sin c * sin c); [now apply Rmult_lt_0_compat|]. rewrite Rmult_0_l.
          replace (- (cos c * (c - sin c * cos c)) / (sin c * sin c) * (sin c * sin c)) with (- (cos c * (c - sin c * cos c))) by (field; lra).
          pose proof (COS_bound c). assert (0 <= c - sin c * cos c) by nra. nra.
        - pose proof (sin2_cos2 c) as S2. unfold Rsqr in S2. field_simplify_eq; [|lra].
          replace (sin c ^ 3) with (sin c * (1 - cos c * cos c)) by (rewrite <- S2; ring). ring. }
      assert ((((sin c - c * cos c) / (sin c * sin c) - sin c)) * (b - a) <= 0) by nra. lra.
Qed.

(** The logarithm on the side of the identity. *)
Lemma std_log_angle q : unit_quat q -> 0 < qw q -> vnorm (qimag q) <> 0 ->
  exists a, 0 < a < PI / 2 /\ qw q = cos a /\ vnorm (qimag q) = sin a /\ std_log q = vscale (2 * (a / sin a)) (qimag q).
Proof.
  intros Hu Hw Hn. pose proof (imag_norm q Hu) as N. pose proof (vnorm_pos (qimag q)) as P.
  assert (W : qw q < 1) by (assert (0 < vnorm (qimag q) * vnorm (qimag q)) by nra; nra).
  exists (acos (qw q)). pose proof (acos_pos (qw q) ltac:(lra)) as A0.
  assert (C : cos (acos (qw q)) = qw q) by (apply cos_acos; lra).
  assert (A1 : acos (qw q) < PI / 2).
  { apply Rnot_le_lt. intros L. pose proof (acos_bound (qw q)) as B. pose proof PI_RGT_0.
    destruct L as [L|L]; [pose proof (cos_lt_0 _ L ltac:(lra)); lra|]. rewrite <- L, cos_PI2 in C. lra. }
  assert (S : vnorm (qimag q) = sin (acos (qw q))).
  { rewrite sin_acos by lra. rewrite <- (sqrt_square (vnorm (qimag q)) P), N. unfold Rsqr. reflexivity. }
  split; [lra|]. split; [now rewrite C|]. split; [exact S|].
  unfold std_log. destruct (Req_EM_T _ 0) as [X|_]; [contradiction|]. destruct (Rlt_dec (qw q) 0) as [X|_]; [lra|].
  rewrite (Rabs_pos_eq (qw q)) by lra. rewrite <- S. f_equal. field. exact Hn.
Qed.

Lemma ratio_range a : 0 < a <= PI / 2 -> 0 < a / sin a <= PI / 2.
Proof.
  intros Ha. pose proof PI_RGT_0 as P. assert (S : 0 < sin a) by (apply sin_gt_0; lra). split; [now apply Rdiv_lt_0_compat|].
  destruct (ratio_between a (PI / 2) ltac:(lra) ltac:(lra)) as [H _]. rewrite sin_PI2 in H. lra.
Qed.

Lemma imag_dist p q : vdist (qimag p) (qimag q) * vdist (qimag p) (qimag q) + (qw p - qw q) * (qw p - qw q) = qdist p q * qdist p q.
Proof.
  rewrite vdist_pure. unfold qdist. rewrite !qnorm_sqr. destruct p as [a b c d], q as [a' b' c' d'].
  cbn [qminus qpure qimag qw qx qy qz vx vy vz]. numR. ring.
Qed.

Lemma PI_below : PI <= 335 / 100.
Proof. pose proof (proj2 (PI_ineq 2)) as H. cbn in H. unfold tg_alt, PI_tg in H. cbn in H. lra. Qed.

Lemma log_lipschitz_side p q : unit_quat p -> unit_quat q -> 0 < qw p -> 0 < qw q ->
  vdist (std_log p) (std_log q) <= 4 * qdist p q.
Proof.
  intros Up Uq Wp Wq. pose proof (imag_dist p q) as Q. pose proof (vdist_pos (qimag p) (qimag q)) as P1. pose proof (qdist_pos p q) as P2.
  pose proof PI_below as HP. pose proof PI_RGT_0 as PP.
  assert (Zero : forall r, vnorm (qimag r) = 0 -> std_log r = vscale 2 (qimag r)).
  { intros r Hr. unfold std_log. destruct (Req_EM_T _ 0) as [_|X]; [|contradiction]. apply vnorm_zero in Hr. rewrite Hr.
    unfold vscale. cbn [vx vy vz]. numR. now rewrite Rmult_0_r. }
  assert (Len : forall r, unit_quat r -> vnorm (qimag r) <= 1).
  { intros r Hr. pose proof (imag_norm r Hr) as N. pose proof (vnorm_pos (qimag r)). nra. }
  assert (Main : exists s s' : R, std_log p = vscale s (qimag p) /\ std_log q = vscale s' (qimag q) /\
    Rabs s' <= 335 / 100 /\ Rabs (s - s') * vnorm (qimag p) <= 2 * Rabs (qw p - qw q)).
  { destruct (Req_EM_T (vnorm (qimag p)) 0) as [Zp|Zp].
    - destruct (Req_EM_T (vnorm (qimag q)) 0) as [Zq|Zq].
      + exists 2, 2. split; [now apply Zero|]. split; [now apply Zero|]. rewrite (Rminus_diag_eq _ _ eq_refl), Rabs_R0, (Rabs_pos_eq) by lra.
        pose proof (Rabs_pos (qw p - qw q)). split; lra.
      + destruct (std_log_angle q Uq Wq Zq) as (b & Hb & _ & _ & ->). pose proof (ratio_range b ltac:(lra)) as Rb.
        exists 2, (2 * (b / sin b)). split; [now apply Zero|]. split; [reflexivity|]. rewrite Zp, Rmult_0_r, (Rabs_pos_eq (2 * (b / sin b))) by lra.
        pose proof (Rabs_pos (qw p - qw q)). split; lra.
    - destruct (std_log_angle p Up Wp Zp) as (a & Ha & Ca & Sa & ->).
      pose proof (ratio_range a ltac:(lra)) as Ra.
      destruct (Req_EM_T (vnorm (qimag q)) 0) as [Zq|Zq].
      + exists (2 * (a / sin a)), (2 * (a / sin a)). split; [reflexivity|]. split.
        * rewrite Zero by exact Zq. apply vnorm_zero in Zq. rewrite Zq. unfold vscale. cbn [vx vy vz]. numR. now rewrite !Rmult_0_r.
        * rewrite (Rminus_diag_eq _ _ eq_refl), Rabs_R0, (Rabs_pos_eq) by lra. pose proof (Rabs_pos (qw p - qw q)). split; lra.
      + destruct (std_log_angle q Uq Wq Zq) as (b & Hb & Cb & _ & ->). pose proof (ratio_range b ltac:(lra)) as Rb.
        exists (2 * (a / sin a)), (2 * (b / sin b)). split; [reflexivity|]. split; [reflexivity|].
        split; [rewrite Rabs_pos_eq; lra|].
        assert (X : Rabs (2 * (a / sin a) - 2 * (b / sin b)) <= 2 * Rabs (qw p - qw q)).
        { rewrite Ca, Cb. destruct (Rle_or_lt a b) as [L|L].
          - destruct (ratio_between a b ltac:(lra) ltac:(lra)) as [B1 B2]. rewrite Rabs_left1 by lra. rewrite Rabs_pos_eq; lra.
          - destruct (ratio_between b a ltac:(lra) ltac:(lra)) as [B1 B2]. rewrite Rabs_pos_eq by lra. rewrite Rabs_left1; lra. }
        pose proof (Len p Up). pose proof (vnorm_pos (qimag p)). pose proof (Rabs_pos (2 * (a / sin a) - 2 * (b / sin b))). nra. }
  destruct Main as (s & s' & -> & -> & B & C).
  eapply Rle_trans; [apply vdist_scale|].
  apply Rle_trans with (2 * Rabs (qw p - qw q) + 335 / 100 * vdist (qimag p) (qimag q)).
  { apply Rplus_le_compat; [exact C|]. now apply Rmult_le_compat_r. }
  pose proof (Rabs_pos (qw p - qw q)) as P3.
  assert (S : Rabs (qw p - qw q) * Rabs (qw p - qw q) = (qw p - qw q) * (qw p - qw q)) by (rewrite <- Rabs_mult; apply Rabs_pos_eq, Rle_0_sqr).
  apply le_by_squares; [lra|]. rewrite <- S in Q. set (i := vdist _ _) in *. set (w := Rabs _) in *. set (d := qdist p q) in *.
  replace (4 * d * (4 * d)) with (16 * (d * d)) by ring. rewrite <- Q.
  assert (0 <= (335 / 100 * w - 2 * i) * (335 / 100 * w - 2 * i)) by apply Rle_0_sqr. nra.
Qed.

Lemma std_log_neg q : qw q <> 0 -> std_log (qneg q) = std_log q.
Proof.
  intros Hw. unfold std_log. replace (vnorm (qimag (qneg q))) with (vnorm (qimag q)).
  2:{ unfold vnorm. f_equal. destruct q as [a b c d]. cbn. numR. ring. }
  destruct (Req_EM_T _ 0) as [Z|Z]; [reflexivity|].
  replace (Rabs (qw (qneg q))) with (Rabs (qw q)) by (cbn [qneg qw]; numR; now rewrite Rabs_Ropp).
  destruct q as [a b c d]. unfold qneg, qimag, vscale in *. cbn [qw qx qy qz vx vy vz] in *. numR.
  destruct (Rlt_dec (- a) 0), (Rlt_dec a 0); try lra; f_equal; field; exact Z.
Qed.

(** Quaternions closer together than to the half turns. *)
Theorem std_log_lipschitz : forall p q, unit_quat p -> unit_quat q -> qdist p q < Rabs (qw q) ->
  vdist (std_log p) (std_log q) <= 4 * qdist p q.
Proof.
  intros p q Up Uq H. assert (D : Rabs (qw p - qw q) <= qdist p q).
  { apply (Rle_trans _ (qnorm (qminus p q))); [|apply Rle_refl]. exact (proj1 (qcomponents (qminus p q))). }
  assert (UN : forall r, unit_quat r -> unit_quat (qneg r)).
  { intros [a b c d]. unfold unit_quat. cbn. numR. intros E. rewrite <- E. ring. }
  apply Rabs_le_between in D. destruct (Rle_or_lt 0 (qw q)) as [W|W].
  - rewrite Rabs_pos_eq in H by exact W. apply log_lipschitz_side; auto; lra.
  - rewrite Rabs_left in H by exact W. rewrite <- (std_log_neg p), <- (std_log_neg q) by lra.
    replace (qdist p q) with (qdist (qneg p) (qneg q)).
    2:{ unfold qdist, qnorm. f_equal. destruct p as [a b c d], q as [a' b' c' d']. cbn. numR. ring. }
    apply log_lipschitz_side; auto; cbn [qneg qw]; numR; lra.
Qed.
