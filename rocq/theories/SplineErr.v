(** * Rounding errors of the evaluation of a polynomial spline in binary64 *)

From Coq Require Import List Bool Arith NArith ZArith Reals Lra Lia.
From Flocq Require Import Core IEEE754.BinarySingleNaN.
From Verif Require Import Base TimeOrder TimeB64 TimeInst Num NumB64 HermiteB64 HermiteErr Spline.
Import ListNotations.
Local Open Scope R_scope.

Local Notation u := (bpow radix2 (-53)).

(** The terms of an inner product on the scale [z]. *)
Inductive fits (z : R) : list b64 -> list b64 -> list R -> Prop :=
| fits_nil : fits z [] [] []
| fits_cons c t b r cs ts bs : is_finite c = true -> 0 < r -> Rabs (B2R c) * r <= z -> near t b (41 / 10) r -> Rabs b <= r ->
    fits z cs ts bs -> fits z (c :: cs) (t :: ts) (b :: bs).

Lemma term_near z c t b r : middling z -> is_finite c = true -> 0 < r -> Rabs (B2R c) * r <= z -> near t b (41 / 10) r ->
  Rabs b <= r -> near (nmul c t) (B2R c * b) (52 / 10) z /\ Rabs (B2R c * b) <= 1 * z.
Proof.
  intros Hz Fc Hr Hc Ht Hb. pose proof (middling_pos _ Hz) as Pz.
  assert (Ps : 0 < z / r) by (apply Rdiv_lt_0_compat; lra). split.
  - apply (do_mul c t (B2R c) b 0 (41 / 10) 1 1 (z / r) r); auto; try lra.
    + apply near_val. now split.
    + rewrite Rmult_1_l. apply Rmult_le_reg_r with r; [exact Hr|]. replace (z / r * r) with z by (field; lra). exact Hc.
    + field. lra.
  - rewrite Rabs_mult. rewrite Rmult_1_l. eapply Rle_trans; [|exact Hc]. apply Rmult_le_compat_l; [apply Rabs_pos|exact Hb].
Qed.

Lemma inner_near z : middling z -> forall cs ts bs, fits z cs ts bs -> forall acc a k m,
  near acc a k z -> Rabs a <= m * z -> 0 <= k -> k + INR (length cs) * (1121 / 100) <= 1000 -> 0 <= m -> m + INR (length cs) <= 6 ->
  near (inner_product cs ts acc) (inner_product (map B2R cs) bs a) (k + INR (length cs) * (1121 / 100)) z.
Proof.
  intros Hz. pose proof (middling_pos _ Hz) as Pz.
  induction 1 as [|c t b r cs ts bs Fc Hr Hc Ht Hb Hf IH]; intros acc a k m Ha Hm Hk Hk1 Hm0 Hn.
  - cbn [inner_product map length INR]. now rewrite Rmult_0_l, Rplus_0_r.
  - cbn [inner_product map]. change (length (c :: cs)) with (S (length cs)) in *. rewrite S_INR in *.
    pose proof (pos_INR (length cs)) as Pn.
    assert (Hle : INR (length cs) <= 5) by lra.
    destruct (term_near z c t b r Hz Fc Hr Hc Ht Hb) as [T1 T2].
    assert (Hs : Rabs (a + B2R c * b) <= (m + 1) * z).
    { eapply Rle_trans; [apply Rabs_triang|]. lra. }
    assert (Hadd : near (nadd acc (nmul c t)) (a + B2R c * b) (k + 1121 / 100) z).
    { eapply do_add; [exact Ha|exact T1|exact Hs|exact Hz|]. lra. }
    specialize (IH _ _ _ (m + 1) Hadd Hs ltac:(lra) ltac:(lra) ltac:(lra) ltac:(lra)).
    eapply near_weaken; [lra|exact IH|lra].
Qed.

(** The spline with the same numbers over the reals. *)
Definition real_spline (s : spline b64) : spline R := mkSpline (B2R (s_duration s)) (map B2R (s_coefs s)).

(** std::max and std::min are exact. *)
Lemma nltb_finite (x y : b64) : is_finite x = true -> is_finite y = true -> @nltb b64 _ x y = @nltb R _ (B2R x) (B2R y).
Proof.
  intros Fx Fy. change (@nltb b64 _ x y) with (Bltb x y). rewrite Bltb_correct by assumption. change (@nltb R _ (B2R x) (B2R y)) with (Rltb (B2R x) (B2R y)).
  destruct (Rltb (B2R x) (B2R y)) eqn:E.
  - apply Rltb_lt in E. now apply Rlt_bool_true.
  - apply Rltb_ge in E. now apply Rlt_bool_false.
Qed.

Lemma clamp_val (t d : b64) : is_finite t = true -> is_finite d = true -> val (clamp t d) (clamp (B2R t) (B2R d) : R).
Proof.
  intros Ft Fd. unfold clamp, nmax, nmin. rewrite (nltb_finite d t) by assumption.
  assert (Z : val (nofZ 0 : b64) 0) by (apply (val_int 0); vm_compute; discriminate). destruct Z as [Fz Ez].
  destruct (nltb (B2R d) (B2R t)).
  - rewrite (nltb_finite (nofZ 0) d) by assumption. rewrite Ez. change (@nofZ R _ 0) with 0.
    destruct (nltb 0 (B2R d)); split; auto.
  - rewrite (nltb_finite (nofZ 0) t) by assumption. rewrite Ez. change (@nofZ R _ 0) with 0.
    destruct (nltb 0 (B2R t)); split; auto.
Qed.

Lemma clamp_range (t d : R) : 0 <= d -> 0 <= clamp t d <= d.
Proof.
  intros Hd. unfold clamp. rewrite nmaxR, nminR. change (@nofZ R _ 0) with 0.
  split; [apply Rmax_l|]. apply Rmax_lub; [exact Hd|apply Rmin_r].
Qed.

Section Powers.
Variables (T x : R) (t : b64).
Hypotheses (Ht : val t x) (Hx : 0 <= x <= T).
Hypothesis HT : bpow radix2 (-150) <= T <= bpow radix2 150.

Lemma T_pos : 0 < T.
Proof. destruct HT as [A _]. pose proof (bpow_gt_0 radix2 (-150)). lra. Qed.

Lemma T_pow n : (0 <= n <= 6)%nat -> middling (T ^ n).
Proof.
  intros Hn. pose proof T_pos as P. destruct HT as [A B].
  assert (Lo : forall n, bpow radix2 (-150 * Z.of_nat n) <= T ^ n).
  { induction n0 as [|m IH]; [simpl; lra|]. replace (-150 * Z.of_nat (S m))%Z with (-150 + -150 * Z.of_nat m)%Z by lia.
    rewrite bpow_plus. change (T ^ S m) with (T * T ^ m). apply Rmult_le_compat; auto; apply bpow_ge_0. }
  assert (Hi : forall n, T ^ n <= bpow radix2 (150 * Z.of_nat n)).
  { induction n0 as [|m IH]; [simpl; lra|]. replace (150 * Z.of_nat (S m))%Z with (150 + 150 * Z.of_nat m)%Z by lia.
    rewrite bpow_plus. change (T ^ S m) with (T * T ^ m). apply Rmult_le_compat; auto; [lra|]. apply pow_le. lra. }
  split.
  - eapply Rle_trans; [|apply Lo]. apply bpow_le. lia.
  - eapply Rle_trans; [apply Hi|]. apply bpow_le. lia.
Qed.

Lemma x_pow n : 0 <= x ^ n <= T ^ n.
Proof. split; [apply pow_le; lra|apply pow_incr; lra]. Qed.

Lemma pow_near1 : near t (x ^ 1) 0 (T ^ 1).
Proof. rewrite !pow_1. now apply near_val. Qed.

Lemma pow_step (a b : b64) i j k l m : near a (x ^ i) k (T ^ i) -> near b (x ^ j) l (T ^ j) -> (i + j <= 6)%nat ->
  0 <= k <= 10 -> 0 <= l <= 10 -> k + l + 51 / 50 <= m -> near (nmul a b) (x ^ (i + j)) m (T ^ (i + j)).
Proof.
  intros Ha Hb Hij Hk Hl Hm. pose proof (x_pow i) as Xi. pose proof (x_pow j) as Xj. pose proof T_pos as P.
  rewrite pow_add. apply (do_mul a b (x ^ i) (x ^ j) k l 1 1 (T ^ i) (T ^ j)); auto.
  - rewrite Rabs_pos_eq; lra.
  - rewrite Rabs_pos_eq; lra.
  - apply T_pow. lia.
  - now apply pow_lt.
  - now apply pow_lt.
  - now rewrite pow_add.
  - lra.
Qed.

Lemma pow_near2 : near (npow2 t) (x ^ 2) (51 / 50) (T ^ 2).
Proof. apply (pow_step t t 1 1 0 0); try apply pow_near1; try lia; lra. Qed.
Lemma pow_near3 : near (npow3 t) (x ^ 3) (102 / 50) (T ^ 3).
Proof. apply (pow_step _ t 2 1 (51 / 50) 0); [apply pow_near2|apply pow_near1|lia|lra..]. Qed.
Lemma pow_near4 : near (npow4 t) (x ^ 4) (153 / 50) (T ^ 4).
Proof. apply (pow_step _ _ 2 2 (51 / 50) (51 / 50)); [apply pow_near2|apply pow_near2|lia|lra..]. Qed.
Lemma pow_near5 : near (npow5 t) (x ^ 5) (204 / 50) (T ^ 5).
Proof.
  apply (pow_step _ _ 3 2 (102 / 50) (51 / 50)); [|apply pow_near2|lia|lra..].
  apply (pow_step t _ 1 2 0 (51 / 50)); [apply pow_near1|apply pow_near2|lia|lra..].
Qed.

(** An integer times a power. *)
Lemma times_near z Z (a : b64) i k : near a (x ^ i) k (T ^ i) -> (i <= 5)%nat -> 0 <= k <= 153 / 50 ->
  (0 < z <= Z)%Z -> (Z <= 2 ^ 10)%Z -> near (nmul (nofZ z) a) (IZR z * x ^ i) (41 / 10) (IZR Z * T ^ i).
Proof.
  intros Ha Hi Hk Hz HZ. pose proof (x_pow i) as X. pose proof T_pos as P. assert (Pi : 0 < T ^ i) by now apply pow_lt.
  assert (Hz1 : 1 <= IZR z <= IZR Z) by (split; apply IZR_le; lia).
  assert (HZ1 : IZR Z <= 1024) by (apply IZR_le; lia).
  apply (do_mul (nofZ z) a (IZR z) (x ^ i) 0 k 1 1 (IZR Z) (T ^ i)); auto; try lra.
  - apply near_int. lia.
  - rewrite Rabs_pos_eq; lra.
  - rewrite Rabs_pos_eq; lra.
  - pose proof (T_pow (S i) ltac:(lia)) as M1. pose proof (T_pow i ltac:(lia)) as [L H]. split.
    + eapply Rle_trans; [exact L|]. nra.
    + apply Rle_trans with (bpow radix2 10 * bpow radix2 750).
      * apply Rmult_le_compat; try lra; [simpl; lra|].
        clear - HT Hi P. destruct HT as [_ B].
        assert (Q : forall n, T ^ n <= bpow radix2 (150 * Z.of_nat n)).
        { induction n as [|m IH]; [simpl; lra|]. replace (150 * Z.of_nat (S m))%Z with (150 + 150 * Z.of_nat m)%Z by lia.
          rewrite bpow_plus. change (T ^ S m) with (T * T ^ m). apply Rmult_le_compat; auto; [lra|]. apply pow_le. lra. }
        eapply Rle_trans; [apply Q|]. apply bpow_le. lia.
      * rewrite <- bpow_plus. apply bpow_le. lia.
Qed.

Lemma times_bound z Z i : (0 < z <= Z)%Z -> Rabs (IZR z * x ^ i) <= IZR Z * T ^ i.
Proof.
  intros Hz. pose proof (x_pow i) as X. assert (Hz1 : 1 <= IZR z <= IZR Z) by (split; apply IZR_le; lia).
  rewrite Rabs_pos_eq by (apply Rmult_le_pos; lra). apply Rmult_le_compat; lra.
Qed.

(** ** The three inner products *)

(** [cs] are coefficients, highest power first, the largest term of the polynomial up to
    [T] is at most [M]. *)
Definition bounded (M : R) (cs : list b64) : Prop :=
  forall i c, nth_error (rev cs) i = Some c -> is_finite c = true /\ Rabs (B2R c) * T ^ i <= M.

Lemma near_eq (a : b64) v v' k r : near a v k r -> v = v' -> near a v' k r.
Proof. now intros H <-. Qed.

Lemma position_term M (c a : b64) v i k cs ts bs : middling M -> is_finite c = true -> Rabs (B2R c) * T ^ i <= M ->
  near a (x ^ i) k (T ^ i) -> v = x ^ i -> k <= 41 / 10 -> fits M cs ts bs -> fits M (c :: cs) (a :: ts) (v :: bs).
Proof.
  intros HM Fc Hc Ha -> Hk Hf. pose proof (x_pow i) as X. pose proof T_pos as P. assert (Pi : 0 < T ^ i) by now apply pow_lt.
  apply (fits_cons M c a (x ^ i) (T ^ i)); auto; [eapply near_weaken; [lra|exact Ha|exact Hk]|rewrite Rabs_pos_eq; lra].
Qed.

(** A term of the [d]-th derivative, with the factor [z] of at most [Z]. *)
Lemma derived_term M d z Z (c a : b64) v i k cs ts bs : 0 < M -> is_finite c = true -> Rabs (B2R c) * T ^ (i + d) <= M ->
  near a (x ^ i) k (T ^ i) -> v = IZR z * x ^ i -> 0 <= k <= 153 / 50 -> (i <= 5)%nat -> (0 < z <= Z)%Z -> (Z <= 2 ^ 10)%Z ->
  fits (IZR Z * (M / T ^ d)) cs ts bs -> fits (IZR Z * (M / T ^ d)) (c :: cs) (nmul (nofZ z) a :: ts) (v :: bs).
Proof.
  intros HM Fc Hc Ha -> Hk Hi Hz HZ Hf. pose proof T_pos as P.
  assert (Pi : 0 < T ^ i) by now apply pow_lt. assert (Pd : 0 < T ^ d) by now apply pow_lt.
  assert (PZ : 0 < IZR Z) by (apply IZR_lt; lia).
  apply (fits_cons _ c _ (IZR z * x ^ i) (IZR Z * T ^ i)); auto.
  - now apply Rmult_lt_0_compat.
  - rewrite pow_add in Hc. apply Rmult_le_reg_r with (T ^ d); [exact Pd|].
    replace (IZR Z * (M / T ^ d) * T ^ d) with (IZR Z * M) by (field; lra).
    replace (Rabs (B2R c) * (IZR Z * T ^ i) * T ^ d) with (IZR Z * (Rabs (B2R c) * (T ^ i * T ^ d))) by ring.
    apply Rmult_le_compat_l; [lra|exact Hc].
  - apply times_near with (k := k); auto.
  - now apply times_bound.
Qed.

(** A term that is a small integer (or zero). *)
Lemma constant_term M d z Z (c : b64) v i cs ts bs : 0 < M -> is_finite c = true -> Rabs (B2R c) * T ^ i <= M -> (i <= d)%nat ->
  (i = d \/ z = 0%Z) -> v = IZR z -> (0 <= z <= Z)%Z -> (0 < Z <= 2 ^ 10)%Z ->
  fits (IZR Z * (M / T ^ d)) cs ts bs -> fits (IZR Z * (M / T ^ d)) (c :: cs) (nofZ z :: ts) (v :: bs).
Proof.
  intros HM Fc Hc Hid Hz0 -> Hz HZ Hf. pose proof T_pos as P.
  assert (Pi : 0 < T ^ i) by now apply pow_lt. assert (Pd : 0 < T ^ d) by now apply pow_lt.
  assert (PZ : 0 < IZR Z) by (apply IZR_lt; lia).
  assert (Hz1 : 0 <= IZR z <= IZR Z) by (split; apply IZR_le; lia).
  apply (fits_cons _ c _ (IZR z) (IZR Z * (T ^ i / T ^ d))); auto.
  - apply Rmult_lt_0_compat; [exact PZ|]. now apply Rdiv_lt_0_compat.
  - apply Rmult_le_reg_r with (T ^ d); [exact Pd|].
    replace (IZR Z * (M / T ^ d) * T ^ d) with (IZR Z * M) by (field; lra).
    replace (Rabs (B2R c) * (IZR Z * (T ^ i / T ^ d)) * T ^ d) with (IZR Z * (Rabs (B2R c) * T ^ i)) by (field; lra).
    apply Rmult_le_compat_l; [lra|exact Hc].
  - eapply near_weaken; [|apply near_int; lia|lra]. apply Rmult_le_pos; [lra|]. left. now apply Rdiv_lt_0_compat.
  - rewrite Rabs_pos_eq by lra. destruct Hz0 as [->| ->].
    + unfold Rdiv. rewrite Rinv_r by lra. lra.
    + apply Rmult_le_pos; [lra|]. left. now apply Rdiv_lt_0_compat.
Qed.

Ltac coefs cs Hl Hb := repeat (destruct cs as [|? cs]; cbn [length] in Hl; try (exfalso; lia));
  pose proof (Hb 0%nat _ eq_refl); try pose proof (Hb 1%nat _ eq_refl); try pose proof (Hb 2%nat _ eq_refl);
  try pose proof (Hb 3%nat _ eq_refl); try pose proof (Hb 4%nat _ eq_refl); try pose proof (Hb 5%nat _ eq_refl).
Ltac bound := match goal with H : is_finite ?c = true /\ _ |- is_finite ?c = true => exact (proj1 H)
  | H : is_finite ?c = true /\ _ |- Rabs (B2R ?c) * _ <= _ => exact (proj2 H) end.
Ltac powers := lazymatch goal with
  | |- near (npow5 _) _ _ _ => exact pow_near5 | |- near (npow4 _) _ _ _ => exact pow_near4
  | |- near (npow3 _) _ _ _ => exact pow_near3 | |- near (npow2 _) _ _ _ => exact pow_near2 | |- near _ _ _ _ => exact pow_near1 end.

Lemma position_fits M o cs : middling M -> (1 <= o <= 5)%nat -> length cs = (o + 1)%nat -> bounded M cs ->
  fits M cs (tau o t) (tau o x).
Proof.
  intros HM Ho Hl Hb. unfold bounded in Hb. pose proof (middling_pos _ HM) as PM.
  assert (H0 : near (nofZ 1) (x ^ 0) 0 (T ^ 0)) by (cbn [pow]; apply near_int; vm_compute; discriminate).
  assert (L : forall c, is_finite c = true /\ Rabs (B2R c) * T ^ 0 <= M -> fits M [c] [nofZ 1] [1]).
  { intros c [F B]. apply (position_term M c _ 1 0 0); auto; [lra|constructor]. }
  assert (o = 1 \/ o = 2 \/ o = 3 \/ o = 4 \/ o = 5)%nat as [->|[->|[->|[->| ->]]]] by lia; cbn [tau];
    coefs cs Hl Hb; clear Hb;
    repeat match goal with
    | |- fits _ [_] _ _ => apply L; assumption
    | |- fits M (?c :: ?l) _ _ => let i := eval cbv in (length l) in
        eapply (position_term M c _ _ i); [exact HM|bound|bound|powers|numR; unfold npow5, npow4, npow3, npow2; numR; ring|lra|]
    end.
Qed.

Lemma velocity_fits M o cs : 0 < M -> (1 <= o <= 5)%nat -> length cs = (o + 1)%nat -> bounded M cs ->
  fits (IZR 5 * (M / T ^ 1)) cs (dtau o t) (dtau o x).
Proof.
  intros PM Ho Hl Hb. unfold bounded in Hb.
  assert (L : forall c1 c, is_finite c1 = true /\ Rabs (B2R c1) * T ^ 1 <= M -> is_finite c = true /\ Rabs (B2R c) * T ^ 0 <= M ->
    fits (IZR 5 * (M / T ^ 1)) [c1; c] [nofZ 1; nofZ 0] [1; 0]).
  { intros c1 c [F1 B1] [F B]. apply (constant_term M 1 1 5 c1 1 1); auto; try lia.
    apply (constant_term M 1 0 5 c 0 0); auto; try lia. constructor. }
  assert (o = 1 \/ o = 2 \/ o = 3 \/ o = 4 \/ o = 5)%nat as [->|[->|[->|[->| ->]]]] by lia; cbn [dtau];
    coefs cs Hl Hb; clear Hb;
    repeat match goal with
    | |- fits _ [_; _] _ _ => apply L; assumption
    | |- fits _ (?c :: ?l) (nmul (nofZ ?z) _ :: _) _ => let i := eval cbv in (Nat.pred (length l)) in
        eapply (derived_term M 1 z 5 c _ _ i); [exact PM|bound|bound|powers|numR; unfold npow5, npow4, npow3, npow2; numR; ring|lra|lia|lia|lia|]
    end.
Qed.

Lemma acceleration_fits M o cs : 0 < M -> (1 <= o <= 5)%nat -> length cs = (o + 1)%nat -> bounded M cs ->
  fits (IZR 20 * (M / T ^ 2)) cs (ddtau o t) (ddtau o x).
Proof.
  intros PM Ho Hl Hb. unfold bounded in Hb.
  assert (L1 : forall c1 c, is_finite c1 = true /\ Rabs (B2R c1) * T ^ 1 <= M -> is_finite c = true /\ Rabs (B2R c) * T ^ 0 <= M ->
    fits (IZR 20 * (M / T ^ 2)) [c1; c] [nofZ 0; nofZ 0] [0; 0]).
  { intros c1 c [F1 B1] [F B]. apply (constant_term M 2 0 20 c1 0 1); auto; try lia.
    apply (constant_term M 2 0 20 c 0 0); auto; try lia. constructor. }
  assert (L : forall c2 c1 c, is_finite c2 = true /\ Rabs (B2R c2) * T ^ 2 <= M -> is_finite c1 = true /\ Rabs (B2R c1) * T ^ 1 <= M -> is_finite c = true /\ Rabs (B2R c) * T ^ 0 <= M ->
    fits (IZR 20 * (M / T ^ 2)) [c2; c1; c] [nofZ 2; nofZ 0; nofZ 0] [2; 0; 0]).
  { intros c2 c1 c [F2 B2] H1 H0. apply (constant_term M 2 2 20 c2 2 2); auto; try lia. }
  assert (o = 1 \/ o = 2 \/ o = 3 \/ o = 4 \/ o = 5)%nat as [->|[->|[->|[->| ->]]]] by lia; cbn [ddtau];
    coefs cs Hl Hb; clear Hb;
    repeat match goal with
    | |- fits _ [_; _] _ _ => apply L1; assumption
    | |- fits _ [_; _; _] _ _ => apply L; assumption
    | |- fits _ (?c :: ?l) (nmul (nofZ ?z) _ :: _) _ => let i := eval cbv in (Nat.pred (Nat.pred (length l))) in
        eapply (derived_term M 2 z 20 c _ _ i); [exact PM|bound|bound|powers|numR; unfold npow5, npow4, npow3, npow2; numR; ring|lra|lia|lia|lia|]
    end.
Qed.
End Powers.

(** All three evaluations. *)
Lemma sum_near z cs (ts : list b64) (bs : list R) : middling z -> (length cs <= 6)%nat -> fits z cs ts bs ->
  near (inner_product cs ts (nofZ 0)) (inner_product (map B2R cs) bs 0) 68 z.
Proof.
  intros Hz Hl Hf. pose proof (middling_pos _ Hz) as Pz.
  assert (L : INR (length cs) <= 6) by (apply le_INR in Hl; simpl in Hl; lra). pose proof (pos_INR (length cs)).
  eapply near_weaken; [lra|apply (inner_near z Hz cs ts bs Hf (nofZ 0) 0 0 0)|lra]; try lra.
  - apply near_int. vm_compute. discriminate.
  - rewrite Rabs_R0. lra.
Qed.
