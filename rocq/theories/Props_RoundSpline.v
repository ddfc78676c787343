(** * C98: polynomial splines in double precision *)

From Coq Require Import List Bool Arith NArith ZArith Reals Lra Lia.
From Flocq Require Import Core IEEE754.BinarySingleNaN.
From Verif Require Import Base TimeOrder TimeB64 TimeInst Num NumB64 HermiteB64 HermiteErr Spline SplineSpec SplineProofs SplineErr.
Import ListNotations.
Local Open Scope R_scope.

(** The largest relative error of one operation. *)
Local Notation u := (bpow radix2 (-53)).

(** A spline of order [o] with finite numbers: none of the terms [c_i t^i] exceeds [M] for
    times up to [T], and [T] bounds the duration and is neither extremely small nor
    extremely large. *)
Record tame (o : nat) (M T : R) (s : spline b64) : Prop := {
  t_order : (1 <= o <= 5)%nat;
  t_coefs : length (s_coefs s) = (o + 1)%nat;
  t_finite : is_finite (s_duration s) = true;
  t_duration : 0 <= B2R (s_duration s) <= T;
  t_scale : bpow radix2 (-150) <= T <= bpow radix2 150;
  t_terms : forall i c, nth_error (rev (s_coefs s)) i = Some c -> is_finite c = true /\ Rabs (B2R c) * T ^ i <= M
}.

(** [x] is finite and within [e] of [r]. *)
Definition within (e : R) (x : b64) (r : R) : Prop := is_finite x = true /\ Rabs (B2R x - r) <= e.

Section Errors.
Variables (o : nat) (M T : R) (s : spline b64) (t : b64).
Hypotheses (Hs : tame o M T s) (Ft : is_finite t = true).

Let x : R := clamp (B2R t) (B2R (s_duration s)).

Lemma clamped : val (clamp t (s_duration s)) x /\ 0 <= x <= T.
Proof.
  destruct Hs as [_ _ Fd Hd _ _]. split; [now apply clamp_val|]. pose proof (clamp_range (B2R t) (B2R (s_duration s)) (proj1 Hd)).
  fold x in H. lra.
Qed.

Lemma length6 : (length (s_coefs s) <= 6)%nat.
Proof. destruct Hs as [A B _ _ _ _]. lia. Qed.
End Errors.

Theorem C98_position : forall o M T (s : spline b64) (t : b64), tame o M T s -> is_finite t = true ->
  bpow radix2 (-900) <= M <= bpow radix2 900 ->
  within (68 * u * M) (position_at o s t) (poly o (map B2R (s_coefs s)) (Rmax 0 (Rmin (B2R t) (B2R (s_duration s))))).
Proof.
  intros o M T s t Hs Ft HM. destruct (clamped o M T s t Hs Ft) as [Hv Hx]. destruct Hs as [Ho Hl Fd Hd HT Hc].
  change (Rmax 0 (Rmin (B2R t) (B2R (s_duration s)))) with (restrict (B2R t) (B2R (s_duration s))).
  rewrite <- clamp_restrict, <- tau_poly by (try exact Ho; now rewrite map_length).
  apply (sum_near M (s_coefs s)); [exact HM|lia|]. now apply (position_fits T _ _ Hv Hx HT M o).
Qed.

Theorem C98_velocity : forall o M T (s : spline b64) (t : b64), tame o M T s -> is_finite t = true ->
  bpow radix2 (-900) <= 5 * (M / T) <= bpow radix2 900 ->
  within (68 * u * (5 * (M / T))) (velocity_at o s t) (dpoly o (map B2R (s_coefs s)) (Rmax 0 (Rmin (B2R t) (B2R (s_duration s))))).
Proof.
  intros o M T s t Hs Ft HM. destruct (clamped o M T s t Hs Ft) as [Hv Hx]. destruct Hs as [Ho Hl Fd Hd HT Hc].
  change (Rmax 0 (Rmin (B2R t) (B2R (s_duration s)))) with (restrict (B2R t) (B2R (s_duration s))).
  rewrite <- clamp_restrict, <- dtau_poly by (try exact Ho; now rewrite map_length).
  pose proof (T_pos T HT) as P. rewrite <- (pow_1 T) in HM at 1 2. rewrite <- (pow_1 T).
  assert (PM : 0 < M).
  { pose proof (middling_pos _ HM) as Q. apply Rmult_lt_reg_r with (5 * / T ^ 1); [|].
    - apply Rmult_lt_0_compat; [lra|]. apply Rinv_0_lt_compat, pow_lt, P.
    - replace (M * (5 * / T ^ 1)) with (5 * (M / T ^ 1)) by (unfold Rdiv; ring). lra. }
  apply (sum_near (IZR 5 * (M / T ^ 1)) (s_coefs s)); [exact HM|lia|]. now apply (velocity_fits T _ _ Hv Hx HT M o).
Qed.

Theorem C98_acceleration : forall o M T (s : spline b64) (t : b64), tame o M T s -> is_finite t = true ->
  bpow radix2 (-900) <= 20 * (M / T ^ 2) <= bpow radix2 900 ->
  within (68 * u * (20 * (M / T ^ 2))) (acceleration_at o s t) (ddpoly o (map B2R (s_coefs s)) (Rmax 0 (Rmin (B2R t) (B2R (s_duration s))))).
Proof.
  intros o M T s t Hs Ft HM. destruct (clamped o M T s t Hs Ft) as [Hv Hx]. destruct Hs as [Ho Hl Fd Hd HT Hc].
  change (Rmax 0 (Rmin (B2R t) (B2R (s_duration s)))) with (restrict (B2R t) (B2R (s_duration s))).
  rewrite <- clamp_restrict, <- ddtau_poly by (try exact Ho; now rewrite map_length).
  pose proof (T_pos T HT) as P.
  assert (PM : 0 < M).
  { pose proof (middling_pos _ HM) as Q. apply Rmult_lt_reg_r with (20 * / T ^ 2); [|].
    - apply Rmult_lt_0_compat; [lra|]. apply Rinv_0_lt_compat, pow_lt, P.
    - replace (M * (20 * / T ^ 2)) with (20 * (M / T ^ 2)) by (unfold Rdiv; ring). lra. }
  apply (sum_near (IZR 20 * (M / T ^ 2)) (s_coefs s)); [exact HM|lia|]. now apply (acceleration_fits T _ _ Hv Hx HT M o).
Qed.

(** ** Times outside of the spline, infinite times and no time at all *)

Theorem C98_after : forall o (s : spline b64) (t : b64), nltb (s_duration s) t = true ->
  position_at o s t = position_at o s (s_duration s) /\ velocity_at o s t = velocity_at o s (s_duration s) /\
  acceleration_at o s t = acceleration_at o s (s_duration s).
Proof.
  intros o s t Ht. assert (E : clamp t (s_duration s) = clamp (s_duration s) (s_duration s)).
  { unfold clamp, nmin. rewrite Ht. now destruct (nltb (s_duration s) (s_duration s)). }
  unfold position_at, velocity_at, acceleration_at. rewrite E. auto.
Qed.


Lemma clamp_before (t d : b64) : is_finite d = true -> 0 <= B2R d -> @nltb b64 _ (nofZ 0) t = false ->
  clamp t d = nofZ 0 /\ clamp (nofZ 0) d = nofZ 0.
Proof.
  intros Fd Hd Ht.
  assert (F0 : is_finite (nofZ 0 : b64) = true) by reflexivity.
  assert (D0 : @nltb b64 _ d (nofZ 0) = false).
  { rewrite nltb_finite by auto. change (B2R (nofZ 0 : b64)) with 0. apply Rltb_ge. exact Hd. }
  assert (Z : clamp (nofZ 0) d = nofZ 0).
  { unfold clamp, nmin. rewrite D0. reflexivity. }
  split; [|exact Z]. unfold clamp, nmin.
  assert (Dt : @nltb b64 _ d t = false).
  { destruct (is_finite t) eqn:Ft.
    - rewrite nltb_finite in * by auto. change (B2R (nofZ 0 : b64)) with 0 in Ht. apply Rltb_ge in Ht. apply Rltb_ge. lra.
    - destruct t as [s|s| |s m e B]; try discriminate; [|now destruct d].
      destruct s; [now destruct d as [[]|[]| |[] ? ? ?]|discriminate]. }
  rewrite Dt. unfold nmax. now rewrite Ht.
Qed.

(** Negative times, minus infinity and NaN are answered like time zero. *)
Theorem C98_before : forall o (s : spline b64) (t : b64), is_finite (s_duration s) = true -> 0 <= B2R (s_duration s) ->
  nltb (nofZ 0) t = false ->
  position_at o s t = position_at o s (nofZ 0) /\ velocity_at o s t = velocity_at o s (nofZ 0) /\
  acceleration_at o s t = acceleration_at o s (nofZ 0).
Proof.
  intros o s t Fd Hd Ht. destruct (clamp_before _ _ Fd Hd Ht) as [A B].
  unfold position_at, velocity_at, acceleration_at. rewrite A, B. auto.
Qed.

(** ** Exact at the start *)

Lemma inner_start (cs ts : list b64) : Forall (fun c => is_finite c = true) cs -> Forall (fun x => val x 0) ts ->
  length cs = length ts -> forall acc r, val acc r -> val (inner_product cs ts acc) r.
Proof.
  intros Hc. revert ts. induction Hc as [|c cs Fc Hc IH]; intros [|t ts] Ht Hl acc r Ha; try discriminate; [exact Ha|].
  inversion Ht; subst. cbn [inner_product]. apply IH; auto. apply val_add_0_r; [exact Ha|].
  now apply (val_mul_0_r _ _ (B2R c)); [apply finite_val|].
Qed.

Definition is_zero (x : b64) : bool := match x with B754_zero _ => true | _ => false end.

Lemma zeros (ts : list b64) : forallb is_zero ts = true -> Forall (fun x => val x 0) ts.
Proof.
  induction ts as [|x ts IH]; intros H; constructor; cbn [forallb] in H; apply andb_true_iff in H; [|now apply IH].
  destruct x, H; try discriminate; apply val_zero.
Qed.

Theorem C98_start : forall o (s : spline b64) (t c1 c0 : b64) cs, (1 <= o <= 5)%nat ->
  s_coefs s = cs ++ [c1; c0] -> length (s_coefs s) = (o + 1)%nat -> Forall (fun c => is_finite c = true) (s_coefs s) ->
  is_finite (s_duration s) = true -> 0 <= B2R (s_duration s) -> nltb (nofZ 0) t = false ->
  within 0 (position_at o s t) (B2R c0) /\ within 0 (velocity_at o s t) (B2R c1).
Proof.
  intros o s t c1 c0 cs Ho Hs Hl Hf Fd Hd Ht. destruct (clamp_before _ _ Fd Hd Ht) as [A _].
  unfold position_at, velocity_at. rewrite A. clear A Ht.
  assert (E : forall x r, val x r -> within 0 x r).
  { intros x r [F V]. split; [exact F|]. rewrite V, Rminus_diag_eq, Rabs_R0 by reflexivity. lra. }
  assert (Z : val (nofZ 0 : b64) 0) by (apply (val_int 0); vm_compute; discriminate).
  assert (O : val (nofZ 1 : b64) 1) by (apply (val_int 1); vm_compute; discriminate).
  rewrite Hs in *. rewrite app_length in Hl. cbn [length] in Hl. apply Forall_app in Hf. destruct Hf as [Hcs Hf].
  inversion Hf as [|? ? F1 Hf']; subst. inversion Hf' as [|? ? F0 _]; subst.
  assert (App : forall (l l' : list b64) (m m' : list b64) acc, length l = length m ->
    inner_product (l ++ l') (m ++ m') acc = inner_product l' m' (inner_product l m acc)).
  { intros l l'. induction l as [|a l IH]; intros [|b m] m' acc L; try discriminate; [reflexivity|]. cbn [app inner_product]. apply IH. now injection L. }
  split; apply E.
  - assert (T : exists ts, tau o (nofZ 0 : b64) = ts ++ [nofZ 0; nofZ 1] /\ length cs = length ts /\ forallb is_zero ts = true).
    { exists (firstn (o - 1) (tau o (nofZ 0))).
      assert (o = 1 \/ o = 2 \/ o = 3 \/ o = 4 \/ o = 5)%nat as [->|[->|[->|[->| ->]]]] by lia;
        (split; [reflexivity|split; [cbn; lia|vm_compute; reflexivity]]). }
    destruct T as (ts & -> & L & T). rewrite App by exact L. cbn [inner_product].
    apply val_add_0_l; [|apply val_mul_1_r; [now apply finite_val|exact O]].
    apply val_add_0_r; [|apply (val_mul_0_r _ _ (B2R c1)); [now apply finite_val|exact Z]].
    apply inner_start; auto. now apply zeros.
  - assert (T : exists ts, dtau o (nofZ 0 : b64) = ts ++ [nofZ 1; nofZ 0] /\ length cs = length ts /\ forallb is_zero ts = true).
    { exists (firstn (o - 1) (dtau o (nofZ 0))).
      assert (o = 1 \/ o = 2 \/ o = 3 \/ o = 4 \/ o = 5)%nat as [->|[->|[->|[->| ->]]]] by lia;
        (split; [reflexivity|split; [cbn; lia|vm_compute; reflexivity]]). }
    destruct T as (ts & -> & L & T). rewrite App by exact L. cbn [inner_product].
    apply val_add_0_r; [|apply (val_mul_0_r _ _ (B2R c0)); [now apply finite_val|exact Z]].
    apply val_add_0_l; [|apply val_mul_1_r; [now apply finite_val|exact O]].
    apply inner_start; auto. now apply zeros.
Qed.

(** ** Splines through given points *)

(** The linear spline: the straight line from [p0] to [pT] in [tf]. *)
Theorem C98_linear : forall solve (p : options b64) M (t : b64),
  is_finite (o_tf p) = true -> is_finite (o_pos0 p) = true -> is_finite (o_posT p) = true -> is_finite t = true ->
  bpow radix2 (-150) <= B2R (o_tf p) <= bpow radix2 150 -> bpow radix2 (-700) <= M <= bpow radix2 700 ->
  Rabs (B2R (o_pos0 p)) <= M -> Rabs (B2R (o_posT p)) <= M -> 0 <= B2R t <= B2R (o_tf p) ->
  within (12 * u * M) (position_at 1 (spline_of_options solve 1 p) t)
    (B2R (o_pos0 p) + (B2R (o_posT p) - B2R (o_pos0 p)) * (B2R t / B2R (o_tf p))).
Proof.
  intros solve [tf p0 pT v0 vT a0 aT] M t. cbn [o_tf o_pos0 o_posT]. intros Ftf F0 FT Ft Htf HM H0 HT Ht.
  unfold position_at, spline_of_options. cbn [s_coefs s_duration compute tau inner_product o_tf o_pos0 o_posT].
  pose proof (clamp_val t tf Ft Ftf) as Hv. set (x := clamp t tf) in *.
  replace (clamp (B2R t) (B2R tf) : R) with (B2R t) in Hv.
  2: { rewrite clamp_restrict. unfold restrict. rewrite Rmin_left, Rmax_right; lra. }
  clearbody x. set (T := B2R tf) in *. set (s := B2R t) in *. set (a := B2R p0) in *. set (b := B2R pT) in *.
  assert (PT : 0 < T) by (pose proof (bpow_gt_0 radix2 (-150)); lra).
  assert (mM : middling M).
  { split; [apply Rle_trans with (2 := proj1 HM)|apply Rle_trans with (1 := proj2 HM)]; apply bpow_le; lia. }
  pose proof (middling_pos _ mM) as PM.
  assert (mMT : middling (M / T)).
  { split.
    - apply Rmult_le_reg_r with T; [exact PT|]. replace (M / T * T) with M by (field; lra).
      apply Rle_trans with (bpow radix2 (-900) * bpow radix2 150).
      + apply Rmult_le_compat_l; [apply bpow_ge_0|lra].
      + rewrite <- bpow_plus. apply Rle_trans with (2 := proj1 HM). apply bpow_le. lia.
    - apply Rmult_le_reg_r with T; [exact PT|]. replace (M / T * T) with M by (field; lra).
      apply Rle_trans with (bpow radix2 900 * bpow radix2 (-150)).
      + rewrite <- bpow_plus. apply Rle_trans with (1 := proj2 HM). apply bpow_le. lia.
      + apply Rmult_le_compat_l; [apply bpow_ge_0|lra]. }
  apply Rabs_le_inv in H0. apply Rabs_le_inv in HT.
  assert (N0 : near p0 a 0 M) by (apply near_val; now apply finite_val).
  assert (NT : near pT b 0 M) by (apply near_val; now apply finite_val).
  assert (Ntf : near tf T 0 T) by (apply near_val; now apply finite_val).
  assert (Nx : near x s 0 T) by (now apply near_val).
  assert (N1 : near (nofZ 1) 1 0 1) by (apply near_int; vm_compute; discriminate).
  assert (Nd : near (nsub pT p0) (b - a) (201 / 100) M) by (eapply do_sub with (B := 2); eauto; try lra; apply abs_between; lra).
  assert (Nq : near (ndiv (nsub pT p0) tf) ((b - a) / T) (404 / 100) (M / T)).
  { eapply near_weaken; [left; now apply middling_pos|apply (near_div _ _ (b - a) (201 / 100) 0 2 M T)|]; auto; try lra. apply abs_between; lra. }
  assert (B1 : Rabs ((b - a) / T * s) <= 2 * M).
  { replace ((b - a) / T * s) with ((b - a) * (s / T)) by (field; lra).
    assert (0 <= s / T <= 1).
    { split; [apply Rmult_le_pos; [lra|left; now apply Rinv_0_lt_compat]|]. apply Rmult_le_reg_r with T; [exact PT|].
      replace (s / T * T) with s by (field; lra). lra. }
    apply abs_between. nra. }
  assert (Nm : near (nmul (ndiv (nsub pT p0) tf) x) ((b - a) / T * s) (607 / 100) M).
  { eapply do_mul with (A := 2) (B := 1) (s := M / T) (r := T); eauto; try lra.
    - replace ((b - a) / T) with ((b - a) * / T) by reflexivity. rewrite Rabs_mult, (Rabs_pos_eq (/ T)) by (left; now apply Rinv_0_lt_compat).
      unfold Rdiv. rewrite <- Rmult_assoc. apply Rmult_le_compat_r; [left; now apply Rinv_0_lt_compat|]. apply abs_between; lra.
    - apply abs_between; lra.
    - now apply middling_pos.
    - field; lra. }
  assert (Nz : near (nofZ 0) 0 0 M) by (apply near_int; vm_compute; discriminate).
  assert (Ns : near (nadd (nofZ 0) (nmul (ndiv (nsub pT p0) tf) x)) (0 + (b - a) / T * s) (809 / 100) M).
  { eapply do_add with (B := 2); eauto; try lra. rewrite Rplus_0_l. exact B1. }
  assert (Np : near (nmul p0 (nofZ 1)) (a * 1) (102 / 100) M).
  { eapply do_mul with (A := 1) (B := 1) (s := M) (r := 1); eauto; try lra; try (apply abs_between; lra). }
  assert (Nf : near (nadd (nadd (nofZ 0) (nmul (ndiv (nsub pT p0) tf) x)) (nmul p0 (nofZ 1)))
    ((0 + (b - a) / T * s) + a * 1) 12 M).
  { eapply do_add with (B := 1); eauto; try lra.
    assert (Hr : 0 <= s / T <= 1).
    { split; [apply Rmult_le_pos; [lra|left; now apply Rinv_0_lt_compat]|]. apply Rmult_le_reg_r with T; [exact PT|].
      replace (s / T * T) with s by (field; lra). lra. }
    replace (0 + (b - a) / T * s + a * 1) with (a * (1 - s / T) + b * (s / T)) by (field; lra). apply abs_between.
    generalize dependent (s / T). intros r Hr. nra. }
  destruct Nf as [F E]. split; [exact F|]. replace (a + (b - a) * (s / T)) with (0 + (b - a) / T * s + a * 1) by (field; lra). exact E.
Qed.

(** The quadratic spline: from [p0] with velocity [v0] to [pT] in [tf]. *)
Theorem C98_quadratic : forall solve (p : options b64) M (t : b64),
  is_finite (o_tf p) = true -> is_finite (o_pos0 p) = true -> is_finite (o_posT p) = true -> is_finite (o_vel0 p) = true ->
  is_finite t = true ->
  bpow radix2 (-150) <= B2R (o_tf p) <= bpow radix2 150 -> bpow radix2 (-500) <= M <= bpow radix2 500 ->
  Rabs (B2R (o_pos0 p)) <= M -> Rabs (B2R (o_posT p)) <= M -> Rabs (B2R (o_vel0 p)) * B2R (o_tf p) <= M ->
  0 <= B2R t <= B2R (o_tf p) ->
  within (35 * u * M) (position_at 2 (spline_of_options solve 2 p) t)
    (B2R (o_pos0 p) + B2R (o_vel0 p) * B2R t +
     (B2R (o_posT p) - B2R (o_pos0 p) - B2R (o_vel0 p) * B2R (o_tf p)) * (B2R t / B2R (o_tf p)) ^ 2).
Proof.
  intros solve [tf p0 pT v0 vT a0 aT] M t. cbn [o_tf o_pos0 o_posT o_vel0]. intros Ftf F0 FT Fv Ft Htf HM H0 HT HV Ht.
  unfold position_at, spline_of_options. cbn [s_coefs s_duration compute tau inner_product o_tf o_pos0 o_posT o_vel0].
  pose proof (clamp_val t tf Ft Ftf) as Hv. set (x := clamp t tf) in *.
  replace (clamp (B2R t) (B2R tf) : R) with (B2R t) in Hv.
  2: { rewrite clamp_restrict. unfold restrict. rewrite Rmin_left, Rmax_right; lra. }
  clearbody x. pose proof (pow_near2 _ _ _ Hv Ht Htf) as Nx2. pose proof (finite_val _ Ftf) as Vtf.
  assert (Ntf2 : near (npow2 tf) (B2R tf ^ 2) (51 / 50) (B2R tf ^ 2)) by (apply (pow_near2 (B2R tf) (B2R tf) tf); auto; pose proof (bpow_gt_0 radix2 (-150)); lra).
  pose proof (T_pow _ Htf 2 ltac:(lia)) as mT2.
  set (T := B2R tf) in *. set (s := B2R t) in *. set (a := B2R p0) in *. set (b := B2R pT) in *. set (v := B2R v0) in *.
  assert (PT : 0 < T) by (pose proof (bpow_gt_0 radix2 (-150)); lra).
  assert (PT2 : 0 < T ^ 2) by now apply pow_lt.
  assert (mM : middling M).
  { split; [apply Rle_trans with (2 := proj1 HM)|apply Rle_trans with (1 := proj2 HM)]; apply bpow_le; lia. }
  pose proof (middling_pos _ mM) as PM.
  assert (T2 : bpow radix2 (-300) <= T ^ 2 <= bpow radix2 300).
  { change (-300)%Z with (-150 + -150)%Z. change 300%Z with (150 + 150)%Z. rewrite !bpow_plus. pose proof (bpow_gt_0 radix2 (-150)). simpl pow. split; nra. }
  assert (mMT : middling (M / T ^ 2)).
  { split.
    - apply Rmult_le_reg_r with (T ^ 2); [exact PT2|]. replace (M / T ^ 2 * T ^ 2) with M by (field; lra).
      apply Rle_trans with (bpow radix2 (-900) * bpow radix2 300).
      + apply Rmult_le_compat_l; [apply bpow_ge_0|lra].
      + rewrite <- bpow_plus. apply Rle_trans with (2 := proj1 HM). apply bpow_le. lia.
    - apply Rmult_le_reg_r with (T ^ 2); [exact PT2|]. replace (M / T ^ 2 * T ^ 2) with M by (field; lra).
      apply Rle_trans with (bpow radix2 900 * bpow radix2 (-300)).
      + rewrite <- bpow_plus. apply Rle_trans with (1 := proj2 HM). apply bpow_le. lia.
      + apply Rmult_le_compat_l; [apply bpow_ge_0|lra]. }
  apply Rabs_le_inv in H0. apply Rabs_le_inv in HT.
  assert (Hvb : Rabs v <= 1 * (M / T)).
  { apply Rmult_le_reg_r with T; [exact PT|]. replace (1 * (M / T) * T) with M by (field; lra). exact HV. }
  assert (PMT : 0 < M / T) by now apply Rdiv_lt_0_compat.
  assert (N0 : near p0 a 0 M) by (apply near_val; now apply finite_val).
  assert (NT : near pT b 0 M) by (apply near_val; now apply finite_val).
  assert (Nv : near v0 v 0 (M / T)) by (apply near_val; now apply finite_val).
  assert (Ntf : near tf T 0 T) by (now apply near_val).
  assert (Nx : near x s 0 T) by (now apply near_val).
  assert (N1 : near (nofZ 1) 1 0 1) by (apply near_int; vm_compute; discriminate).
  assert (Nz : near (nofZ 0) 0 0 M) by (apply near_int; vm_compute; discriminate).
  assert (EM : M / T * T = M) by (field; lra).
  assert (EM2 : M / T ^ 2 * T ^ 2 = M) by (field; lra).
  assert (HvT : - M <= v * T <= M).
  { apply Rabs_le_inv. rewrite Rabs_mult, (Rabs_pos_eq T) by lra. exact HV. }
  assert (Hvs : - M <= v * s <= M).
  { apply Rabs_le_inv. rewrite Rabs_mult, (Rabs_pos_eq s) by lra. apply Rle_trans with (2 := HV). apply Rmult_le_compat_l; [apply Rabs_pos|lra]. }
  assert (Nw : near (nmul v0 tf) (v * T) (102 / 100) M).
  { eapply do_mul with (A := 1) (B := 1) (s := M / T) (r := T); eauto; try lra. apply abs_between; lra. }
  assert (Nd : near (nsub pT p0) (b - a) (201 / 100) M) by (eapply do_sub with (B := 2); eauto; try lra; apply abs_between; lra).
  assert (Ne : near (nsub (nsub pT p0) (nmul v0 tf)) (b - a - v * T) (604 / 100) M) by (eapply do_sub with (B := 3); eauto; try lra; apply abs_between; lra).
  assert (Nq : near (ndiv (nsub (nsub pT p0) (nmul v0 tf)) (npow2 tf)) ((b - a - v * T) / T ^ 2) (1215 / 100) (M / T ^ 2)).
  { eapply near_weaken; [left; now apply middling_pos|apply (near_div _ _ (b - a - v * T) (604 / 100) (51 / 50) 3 M (T ^ 2))|]; auto; try lra. apply abs_between; lra. }
  assert (Hr : 0 <= s / T <= 1).
  { split; [apply Rmult_le_pos; [lra|left; now apply Rinv_0_lt_compat]|]. apply Rmult_le_reg_r with T; [exact PT|].
    replace (s / T * T) with s by (field; lra). lra. }
  assert (B1 : - (3 * M) <= (b - a - v * T) / T ^ 2 * s ^ 2 <= 3 * M).
  { replace ((b - a - v * T) / T ^ 2 * s ^ 2) with ((b - a - v * T) * (s / T) ^ 2) by (field; lra).
    generalize dependent (s / T). intros r Hr. assert (0 <= r ^ 2 <= 1) by (simpl; nra). nra. }
  assert (Hs2 : 0 <= s ^ 2 <= T ^ 2) by (apply (x_pow T s Ht 2)).
  set (q := ndiv _ _) in *. clearbody q.
  assert (Nm : near (nmul q (npow2 x)) ((b - a - v * T) / T ^ 2 * s ^ 2) (1824 / 100) M).
  { eapply do_mul with (A := 3) (B := 1) (s := M / T ^ 2) (r := T ^ 2); eauto; try lra.
    - unfold Rdiv. rewrite Rabs_mult, (Rabs_pos_eq (/ T ^ 2)), <- Rmult_assoc by (left; now apply Rinv_0_lt_compat).
      apply Rmult_le_compat_r; [left; now apply Rinv_0_lt_compat|]. apply abs_between; lra.
    - apply abs_between; lra.
    - now apply middling_pos. }
  assert (Ns : near (nadd (nofZ 0) (nmul q (npow2 x))) (0 + (b - a - v * T) / T ^ 2 * s ^ 2) (2126 / 100) M).
  { eapply do_add with (B := 3); eauto; try lra. rewrite Rplus_0_l. apply abs_between; lra. }
  assert (Nu : near (nmul v0 x) (v * s) (102 / 100) M).
  { eapply do_mul with (A := 1) (B := 1) (s := M / T) (r := T); eauto; try lra. apply abs_between; lra. }
  assert (Ns2 : near (nadd (nadd (nofZ 0) (nmul q (npow2 x))) (nmul v0 x)) (0 + (b - a - v * T) / T ^ 2 * s ^ 2 + v * s) (2630 / 100) M).
  { eapply do_add with (B := 4); eauto; try lra. apply abs_between; lra. }
  assert (Np : near (nmul p0 (nofZ 1)) (a * 1) (102 / 100) M).
  { eapply do_mul with (A := 1) (B := 1) (s := M) (r := 1); eauto; try lra; try (apply abs_between; lra). }
  assert (Nf : near (nadd (nadd (nadd (nofZ 0) (nmul q (npow2 x))) (nmul v0 x)) (nmul p0 (nofZ 1)))
    (0 + (b - a - v * T) / T ^ 2 * s ^ 2 + v * s + a * 1) 35 M).
  { eapply do_add with (B := 5); eauto; try lra. apply abs_between; lra. }
  destruct Nf as [F E]. split; [exact F|].
  replace (a + v * s + (b - a - v * T) * (s / T) ^ 2) with (0 + (b - a - v * T) / T ^ 2 * s ^ 2 + v * s + a * 1) by (field; lra). exact E.
Qed.

(** Both end where they should, up to these errors; they need not end there exactly. *)
Corollary C98_linear_end : forall solve (p : options b64) M,
  is_finite (o_tf p) = true -> is_finite (o_pos0 p) = true -> is_finite (o_posT p) = true ->
  bpow radix2 (-150) <= B2R (o_tf p) <= bpow radix2 150 -> bpow radix2 (-700) <= M <= bpow radix2 700 ->
  Rabs (B2R (o_pos0 p)) <= M -> Rabs (B2R (o_posT p)) <= M ->
  within (12 * u * M) (position_at 1 (spline_of_options solve 1 p) (o_tf p)) (B2R (o_posT p)).
Proof.
  intros solve p M Ftf F0 FT Htf HM H0 HT. pose proof (bpow_gt_0 radix2 (-150)).
  replace (B2R (o_posT p)) with (B2R (o_pos0 p) + (B2R (o_posT p) - B2R (o_pos0 p)) * (B2R (o_tf p) / B2R (o_tf p))) by (field; lra).
  apply C98_linear; auto; lra.
Qed.

Theorem C98_exact_end_refuted : exists p : options b64,
  o_pos0 p = nofZ 0 /\ o_posT p = nofZ 1 /\ o_tf p = nofZ 49 /\
  forall solve, nltb (position_at 1 (spline_of_options solve 1 p) (o_tf p)) (o_posT p) = true.
Proof.
  exists (mkOptions (nofZ 49) (nofZ 0) (nofZ 1) (nofZ 0) (nofZ 0) (nofZ 0) (nofZ 0)). do 3 (split; [reflexivity|]). intros solve. vm_compute. reflexivity.
Qed.

(** The quintic [1 + t + t^2 + t^3 + t^4 + t^5] on [0, 2]. *)
Example C98_example :
  tame 5 32 2 (mkSpline (nofZ 2) (repeat (nofZ 1) 6)) /\
  within (68 * u * 32) (position_at 5 (mkSpline (nofZ 2) (repeat (nofZ 1) 6)) (nofZ 2)) 63.
Proof.
  assert (V2 : val (nofZ 2 : b64) 2) by (apply (val_int 2); vm_compute; discriminate).
  assert (V1 : val (nofZ 1 : b64) 1) by (apply (val_int 1); vm_compute; discriminate).
  assert (H : tame 5 32 2 (mkSpline (nofZ 2) (repeat (nofZ 1) 6))).
  { split; try lia; try reflexivity; cbn [s_duration s_coefs].
    - rewrite (proj2 V2). lra.
    - change 2 with (bpow radix2 1). split; apply bpow_le; lia.
    - intros i c E. do 6 (destruct i as [|i]; [cbn in E; injection E as <-; split; [reflexivity|];
        change (B2R _) with (B2R (nofZ 1 : b64)); rewrite (proj2 V1), Rabs_R1; simpl; lra|]). destruct i; discriminate E. }
  split; [exact H|].
  pose proof (C98_position 5 32 2 _ (nofZ 2) H eq_refl) as P. cbn [s_coefs s_duration] in P.
  replace 63 with (poly 5 (map B2R (repeat (nofZ 1 : b64) 6)) (Rmax 0 (Rmin (B2R (nofZ 2 : b64)) (B2R (nofZ 2 : b64))))).
  - apply P. change 32 with (bpow radix2 5). split; apply bpow_le; lia.
  - rewrite (proj2 V2). rewrite Rmin_left, Rmax_right by lra. unfold poly. cbn [repeat map sum_f_R0 nth Nat.sub]. rewrite (proj2 V1). simpl. ring.
Qed.
