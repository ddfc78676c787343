(** * C103: what writing numbers with six digits preserves *)

From Coq Require Import String.
From Coq Require Import List Bool Arith NArith ZArith Reals Lra Lia Ascii.
From Flocq Require Import Core IEEE754.BinarySingleNaN.
From Verif Require Import Base TimeB64 Num NumB64 HermiteErr Csv Props_Csv Digits DigitsProofs.
Import ListNotations.
Local Open Scope R_scope.

Local Notation u := (bpow radix2 (-53)).
Local Notation rnd := (round radix2 (SpecFloat.fexp 53 1024) ZnearestE).

(** ** One number written and read back *)

(** The largest double. *)
Definition largest : b64 := @SF2B 53 1024 (SpecFloat.S754_finite false 9007199254740991 971) eq_refl.

Lemma largest_value : B2R largest = IZR (9007199254740991 * 2 ^ 971).
Proof.
  unfold largest. rewrite B2R_SF2B. unfold SF2R, F2R. cbn [Fnum Fexp SpecFloat.cond_Zopp cond_Zopp]. rewrite mult_IZR.
  assert (X : IZR (2 ^ 971) = bpow radix2 971) by exact (IZR_Zpower radix2 971 ltac:(lia)). rewrite X. reflexivity.
Qed.

Lemma rnd_fits v : 0 <= v <= B2R largest -> Rabs (rnd v) < bpow radix2 1024.
Proof.
  intros [A B]. assert (G : rnd (B2R largest) = B2R largest) by (apply (rnd_val largest); now apply finite_val).
  assert (L : rnd v <= B2R largest) by (rewrite <- G; apply round_le; [exact (fexp_correct 53 1024 eq_refl)|typeclasses eauto|exact B]).
  assert (Z : 0 <= rnd v) by (rewrite <- (round_0 radix2 (SpecFloat.fexp 53 1024) ZnearestE); apply round_le; [exact (fexp_correct 53 1024 eq_refl)|typeclasses eauto|exact A]).
  rewrite Rabs_pos_eq by exact Z. apply Rle_lt_trans with (1 := L). rewrite <- (Rabs_pos_eq (B2R largest)) by lra. apply abs_B2R_lt_emax.
Qed.

Lemma six_digits_fit n d m k : (0 < n)%Z -> (0 < d)%Z -> IZR n / IZR d < bpow radix2 1024 -> six_digits n d = (m, k) ->
  0 < IZR m * 10^^ (k - 5) <= B2R largest.
Proof.
  intros Hn Hd Hq E. destruct (six_digits_spec n d m k Hn Hd E) as (Hm & A & K & U). pose proof (exponent10_spec n d Hd Hn) as [B1 B2].
  set (e := exponent10 n d) in *. set (q := IZR n / IZR d) in *. split.
  { apply Rmult_lt_0_compat; [apply IZR_lt; lia|apply pow10_pos]. }
  rewrite largest_value.
  assert (X : bpow radix2 1024 = IZR (2 ^ 1024)) by (symmetry; exact (IZR_Zpower radix2 1024 ltac:(lia))). rewrite X in Hq.
  destruct (Z_le_gt_dec e 307) as [He|He].
  - eapply Rle_trans; [exact U|]. apply Rle_trans with (10^^ 308); [apply bpow_le; lia|]. rewrite <- pow10_IZR by lia. apply IZR_le. vm_compute. discriminate.
  - assert (H309 : IZR (2 ^ 1024) < 10^^ 309) by (rewrite <- pow10_IZR by lia; apply IZR_lt; vm_compute; reflexivity).
    assert (e = 308%Z) as Ee.
    { assert (e < 309)%Z by (apply pow10_lt_inv; lra). lia. }
    rewrite Ee in *. change (308 - 5)%Z with 303%Z in A. change (308 + 1)%Z with 309%Z in *. apply Rabs_le_inv in A.
    assert (P : 10^^ 303 = IZR (10 ^ 303)) by (symmetry; apply pow10_IZR; lia).
    assert (T : 10 * IZR (2 ^ 1024) < 1797694 * 10^^ 303).
    { rewrite P, <- !mult_IZR. apply IZR_lt. vm_compute. reflexivity. }
    assert (Lg : 179769 * 10^^ 303 <= IZR (9007199254740991 * 2 ^ 971)).
    { rewrite P, <- mult_IZR. apply IZR_le. vm_compute. discriminate. }
    pose proof (pow10_pos 303) as P0. destruct K as [->|[-> Em]].
    + change (308 - 5)%Z with 303%Z in *. assert (Y : IZR m < 179770) by nra. apply lt_IZR in Y.
      apply Rle_trans with (2 := Lg). apply Rmult_le_compat_r; [lra|]. apply IZR_le. lia.
    + exfalso. subst m. change (309 - 5)%Z with (303 + 1)%Z in A. rewrite bpow_plus in A. simpl (10^^ 1) in A. change (IZR (10 ^ 5)) with 100000 in A. nra.
Qed.

(** The decimal number that is written for [x], and its sign, digits and place. *)
Lemma written s m e B dg k n d : fraction_of m e = (n, d) -> six_digits n d = (dg, k) ->
  let x := (B754_finite s m e B : b64) in
  is_finite (atof (to_string6 x)) = true /\ B2R (atof (to_string6 x)) = rnd (with_sign s (IZR dg * 10^^ (k - 5))) /\
  B2R x = with_sign s (IZR n / IZR d) /\ (0 < n)%Z /\ (0 < d)%Z /\ IZR n / IZR d < bpow radix2 1024.
Proof.
  intros Ef Es x. destruct (fraction_of_spec m e n d Ef) as (Hn & Hd & Eq).
  assert (Ex : B2R x = with_sign s (IZR n / IZR d)).
  { rewrite Eq. unfold x. cbn [B2R]. unfold F2R. cbn [Fnum Fexp]. destruct s; cbn [cond_Zopp with_sign]; [|reflexivity]. rewrite opp_IZR. ring. }
  assert (Hq : IZR n / IZR d < bpow radix2 1024).
  { pose proof (abs_B2R_lt_emax 53 1024 x) as H. rewrite Ex in H. destruct s; cbn [with_sign] in H; [rewrite Rabs_Ropp in H|];
      (apply Rle_lt_trans with (2 := H); apply RRle_abs). }
  pose proof (six_digits_fit n d dg k Hn Hd Hq Es) as F. destruct (six_digits_spec n d dg k Hn Hd Es) as (Hm & _).
  assert (T : to_string6 x = signed s (general_text dg k)) by (unfold x, to_string6; rewrite Ef, Es; reflexivity).
  rewrite T. destruct (atof_value s (general_text dg k) _ (general_first dg k) (general_read dg k ltac:(lia)) (proj1 F)) as [A1 A2].
  - apply rnd_fits. lra.
  - auto 10.
Qed.

Lemma with_sign_abs s a b : Rabs (with_sign s a - with_sign s b) = Rabs (a - b).
Proof. destruct s; cbn [with_sign]; [|reflexivity]. rewrite <- Rabs_Ropp. f_equal. ring. Qed.

Lemma with_sign_pos s a : 0 <= a -> Rabs (with_sign s a) = a.
Proof. intros H. destruct s; cbn [with_sign]; rewrite ?Rabs_Ropp; now apply Rabs_pos_eq. Qed.

(** The nearest double is at most as far from [v] as [x] is. *)
Lemma nearest_close (x : b64) v : is_finite x = true -> Rabs (rnd v - B2R x) <= 2 * Rabs (v - B2R x).
Proof.
  intros Fx. destruct (@round_N_pt radix2 (SpecFloat.fexp 53 1024) (fexp_correct 53 1024 eq_refl) (fun z => negb (Z.even z)) v) as [_ H].
  specialize (H (B2R x) (generic_format_B2R 53 1024 x)). replace (rnd v - B2R x) with ((rnd v - v) + (v - B2R x)) by ring.
  eapply Rle_trans; [apply Rabs_triang|]. rewrite (Rabs_minus_sym (B2R x) v) in H. lra.
Qed.

(** Every finite number survives up to a relative error of 1/100000. *)
Theorem C103_kept : forall x : b64, is_finite x = true ->
  is_finite (atof (to_string6 x)) = true /\ Rabs (B2R (atof (to_string6 x)) - B2R x) <= / 100000 * Rabs (B2R x).
Proof.
  intros x Fx. destruct x as [s|s| |s m e B]; try discriminate.
  - assert (E : atof (to_string6 (B754_zero s)) = B754_zero s) by (destruct s; reflexivity). rewrite E. split; [reflexivity|].
    cbn [B2R]. rewrite Rminus_0_r, Rabs_R0. lra.
  - destruct (fraction_of m e) as [n d] eqn:Ef. destruct (six_digits n d) as [dg k] eqn:Es.
    destruct (written s m e B dg k n d Ef Es) as (A1 & A2 & Ex & Hn & Hd & _). split; [exact A1|]. rewrite A2.
    eapply Rle_trans; [now apply nearest_close|]. rewrite Ex, with_sign_abs.
    assert (Q : 0 < IZR n / IZR d) by (apply Rdiv_lt_0_compat; apply IZR_lt; assumption).
    rewrite with_sign_pos by lra. pose proof (six_digits_error n d dg k Hn Hd Es). lra.
Qed.

(** Zero, the infinities and NaN survive as they are. *)
Theorem C103_special : forall x : b64, is_finite_strict x = false -> atof (to_string6 x) = x.
Proof. intros [[]|[]| |s m e B]; try discriminate; reflexivity. Qed.

(** ** Numbers with at most six decimal digits *)

Lemma normal_digits m e : (0 < m < 10 ^ 6)%Z -> exists m' k, (10 ^ 5 <= m' < 10 ^ 6)%Z /\ IZR m * 10^^ e = IZR m' * 10^^ (k - 5).
Proof.
  intros Hm. pose proof (exponent10_spec m 1 ltac:(lia) ltac:(lia)) as [A B]. unfold Rdiv in A, B. rewrite Rinv_1, Rmult_1_r in A, B.
  set (j := exponent10 m 1) in *.
  assert (J0 : (0 < j + 1)%Z) by (apply pow10_lt_inv; apply Rle_lt_trans with (2 := B); simpl; apply IZR_le; lia).
  assert (J1 : (j < 6)%Z).
  { apply pow10_lt_inv. apply Rle_lt_trans with (1 := A). rewrite <- pow10_IZR by lia. apply IZR_lt. lia. }
  rewrite <- pow10_IZR in A by lia. rewrite <- pow10_IZR in B by lia. apply le_IZR in A. apply lt_IZR in B.
  exists (m * 10 ^ (5 - j))%Z, (e + j)%Z. split.
  - split.
    + replace (10 ^ 5)%Z with (10 ^ j * 10 ^ (5 - j))%Z by (rewrite <- Z.pow_add_r by lia; f_equal; lia). apply Z.mul_le_mono_nonneg_r; [apply Z.pow_nonneg; lia|exact A].
    + replace (10 ^ 6)%Z with (10 ^ (j + 1) * 10 ^ (5 - j))%Z by (rewrite <- Z.pow_add_r by lia; f_equal; lia). apply Z.mul_lt_mono_pos_r; [apply Z.pow_pos_nonneg; lia|exact B].
  - rewrite mult_IZR, pow10_IZR, Rmult_assoc, <- bpow_plus by lia. f_equal. f_equal. lia.
Qed.

(** The double nearest to such a number has its digits. *)
Lemma digits_of_nearest s m e B n d dg k : fraction_of m e = (n, d) -> (10 ^ 5 <= dg < 10 ^ 6)%Z ->
  bpow radix2 (-1000) <= IZR dg * 10^^ (k - 5) ->
  B2R (B754_finite s m e B : b64) = rnd (with_sign s (IZR dg * 10^^ (k - 5))) -> six_digits n d = (dg, k).
Proof.
  intros Ef Hdg Hlo Hx. destruct (fraction_of_spec m e n d Ef) as (Hn & Hd & Eq). apply six_digits_unique; auto.
  assert (Ex : B2R (B754_finite s m e B : b64) = with_sign s (IZR n / IZR d)).
  { rewrite Eq. cbn [B2R]. unfold F2R. cbn [Fnum Fexp]. destruct s; cbn [cond_Zopp with_sign]; [|reflexivity]. rewrite opp_IZR. ring. }
  rewrite Hx in Ex. set (v := IZR dg * 10^^ (k - 5)) in *. set (q := IZR n / IZR d) in *.
  assert (E : rnd v = q).
  { destruct s; cbn [with_sign] in Ex; [rewrite round_NE_opp in Ex; lra|exact Ex]. }
  rewrite <- E, Rabs_minus_sym. pose proof (rnd_error v) as R. eapply Rle_lt_trans; [exact R|].
  assert (Pv : 0 < v) by (pose proof (bpow_gt_0 radix2 (-1000)); lra). rewrite Rabs_pos_eq by lra.
  pose proof (pow10_pos (k - 5)) as P.
  assert (Hv : v <= 1000000 * 10^^ (k - 5)).
  { unfold v. apply Rmult_le_compat_r; [lra|]. change 1000000 with (IZR (10 ^ 6)). apply IZR_le. lia. }
  assert (Tn : bpow radix2 (-1075) <= u * v).
  { apply Rle_trans with (u * bpow radix2 (-1000)); [|apply Rmult_le_compat_l; [apply bpow_ge_0|exact Hlo]].
    rewrite <- bpow_plus. apply bpow_le. lia. }
  rewrite u_value in *. lra.
Qed.

(** A double that is the nearest one to a number with at most six decimal digits comes back unchanged. *)
Theorem C103_six_digit_numbers : forall (x : b64) m e, is_finite x = true -> (0 < Z.abs m < 10 ^ 6)%Z ->
  bpow radix2 (-1000) <= Rabs (IZR m * 10^^ e) <= bpow radix2 1000 -> B2R x = rnd (IZR m * 10^^ e) ->
  atof (to_string6 x) = x.
Proof.
  intros x m e Fx Hm Hr Hx. set (s := (m <? 0)%Z).
  assert (Em : IZR m = with_sign s (IZR (Z.abs m))).
  { unfold s. destruct (Z.ltb_spec m 0); cbn [with_sign]; [rewrite Z.abs_neq, opp_IZR by lia; ring|rewrite Z.abs_eq by lia; reflexivity]. }
  assert (Ev : IZR m * 10^^ e = with_sign s (IZR (Z.abs m) * 10^^ e)).
  { rewrite Em. destruct s; cbn [with_sign]; ring. }
  rewrite Ev in Hx, Hr. clear Em Ev. set (a := Z.abs m) in *. clearbody a s. clear m.
  assert (Pa : 0 <= IZR a * 10^^ e) by (apply Rmult_le_pos; [apply IZR_le; lia|apply bpow_ge_0]).
  rewrite with_sign_pos in Hr by exact Pa.
  destruct (normal_digits a e Hm) as (dg & k & Hdg & E). rewrite E in *. clear E a e Hm.
  set (v := IZR dg * 10^^ (k - 5)) in *.
  assert (Pv : 0 < v) by (pose proof (bpow_gt_0 radix2 (-1000)); lra).
  assert (Rv : 0 < rnd v).
  { pose proof (rnd_error v) as R. rewrite (Rabs_pos_eq v) in R by lra. apply Rabs_le_inv in R.
    assert (Tn : bpow radix2 (-1075) <= u * v).
    { apply Rle_trans with (u * bpow radix2 (-1000)); [|apply Rmult_le_compat_l; [apply bpow_ge_0|lra]]. rewrite <- bpow_plus. apply bpow_le. lia. }
    rewrite u_value in *. lra. }
  assert (Sx : B2R x = with_sign s (rnd v)) by (rewrite Hx; destruct s; cbn [with_sign]; [apply round_NE_opp|reflexivity]).
  destruct x as [s'|s'| |s' mx ex B]; try discriminate.
  { exfalso. cbn [B2R] in Sx. destruct s; cbn [with_sign] in Sx; lra. }
  assert (Es : s' = s).
  { cbn [B2R] in Sx. unfold F2R in Sx. cbn [Fnum Fexp] in Sx. pose proof (bpow_gt_0 radix2 ex) as Pe. pose proof (IZR_lt 0 (Zpos mx) eq_refl) as Pm.
    destruct s', s; cbn [cond_Zopp with_sign] in Sx; try reflexivity; exfalso.
    - rewrite opp_IZR in Sx. nra.
    - nra. }
  subst s'. destruct (fraction_of mx ex) as [n d] eqn:Ef.
  pose proof (digits_of_nearest s mx ex B n d dg k Ef Hdg (proj1 Hr) Hx) as E6.
  destruct (written s mx ex B dg k n d Ef E6) as (A1 & A2 & _). fold v in A2. rewrite <- Hx in A2.
  apply B2R_inj; [|reflexivity|exact A2].
  apply is_finite_strict_B2R. rewrite A2, Sx. destruct s; cbn [with_sign]; lra.
Qed.

(** Integers below a million come back unchanged. *)
Corollary C103_integers : forall z, (Z.abs z < 10 ^ 6)%Z -> atof (to_string6 (nofZ z)) = nofZ z.
Proof.
  intros z Hz. destruct (Z.eq_dec z 0) as [->|Nz]; [reflexivity|].
  destruct (val_int z ltac:(lia)) as [F E]. apply (C103_six_digit_numbers _ z 0); auto.
  - lia.
  - simpl (10^^ 0). rewrite Rmult_1_r, <- abs_IZR. split.
    + apply Rle_trans with (bpow radix2 0); [apply bpow_le; lia|]. simpl. apply IZR_le. lia.
    + apply Rle_trans with (IZR (2 ^ 20)); [apply IZR_le; lia|]. change (IZR (2 ^ 20)) with (IZR (Zpower radix2 20)). rewrite IZR_Zpower by lia. apply bpow_le. lia.
  - simpl (10^^ 0). rewrite Rmult_1_r. rewrite E. symmetry. now apply (rnd_val (nofZ z)).
Qed.

(** Writing what was read gives the same text. *)
Theorem C103_again : forall x : b64, is_finite x = true -> bpow radix2 (-999) <= Rabs (B2R x) ->
  to_string6 (atof (to_string6 x)) = to_string6 x.
Proof.
  intros x Fx Hlo. destruct x as [s|s| |s m e B]; try discriminate; [destruct s; reflexivity|].
  destruct (fraction_of m e) as [n d] eqn:Ef. destruct (six_digits n d) as [dg k] eqn:Es.
  destruct (written s m e B dg k n d Ef Es) as (A1 & A2 & Ex & Hn & Hd & _).
  assert (Q : 0 < IZR n / IZR d) by (apply Rdiv_lt_0_compat; apply IZR_lt; assumption).
  rewrite Ex, with_sign_pos in Hlo by lra. pose proof (six_digits_error n d dg k Hn Hd Es) as H6.
  destruct (six_digits_spec n d dg k Hn Hd Es) as (Hdg & _). set (v := IZR dg * 10^^ (k - 5)) in *. set (q := IZR n / IZR d) in *.
  assert (Hv : bpow radix2 (-1000) <= v).
  { apply Rabs_le_inv in H6. change (-999)%Z with (1 + -1000)%Z in Hlo. rewrite bpow_plus in Hlo. simpl (bpow radix2 1) in Hlo. pose proof (bpow_gt_0 radix2 (-1000)). lra. }
  assert (Rv : 0 < rnd v).
  { pose proof (bpow_gt_0 radix2 (-1000)). pose proof (rnd_error v) as R. rewrite (Rabs_pos_eq v) in R by lra. apply Rabs_le_inv in R.
    assert (Tn : bpow radix2 (-1075) <= u * v).
    { apply Rle_trans with (u * bpow radix2 (-1000)); [|apply Rmult_le_compat_l; [apply bpow_ge_0|lra]]. rewrite <- bpow_plus. apply bpow_le. lia. }
    rewrite u_value in *. lra. }
  set (y := atof (to_string6 (B754_finite s m e B))) in *.
  assert (Sy : B2R y = with_sign s (rnd v)) by (rewrite A2; destruct s; cbn [with_sign]; [apply round_NE_opp|reflexivity]).
  destruct y as [s'|s'| |s' my ey B']; try discriminate.
  { exfalso. cbn [B2R] in Sy. destruct s; cbn [with_sign] in Sy; lra. }
  assert (Es' : s' = s).
  { cbn [B2R] in Sy. unfold F2R in Sy. cbn [Fnum Fexp] in Sy. pose proof (bpow_gt_0 radix2 ey) as Pe. pose proof (IZR_lt 0 (Zpos my) eq_refl) as Pm.
    destruct s', s; cbn [cond_Zopp with_sign] in Sy; try reflexivity; exfalso.
    - rewrite opp_IZR in Sy. nra.
    - nra. }
  subst s'. destruct (fraction_of my ey) as [n' d'] eqn:Ef'.
  pose proof (digits_of_nearest s my ey B' n' d' dg k Ef' Hdg Hv A2) as E6. cbn [to_string6]. now rewrite Ef', E6, Ef, Es.
Qed.

(** ** Order *)

Lemma round_half_even_tie n d : (0 < d)%Z -> Rabs (IZR (round_half_even n d) - IZR n / IZR d) = / 2 -> Z.even (round_half_even n d) = true.
Proof.
  intros Hd H. pose proof (Pd d Hd) as P. unfold round_half_even in *.
  pose proof (Z.div_mod n d ltac:(lia)) as E. pose proof (Z.mod_pos_bound n d Hd) as B.
  set (a := (n / d)%Z) in *. set (r := (n mod d)%Z) in *.
  assert (Eq : IZR n / IZR d = IZR a + IZR r / IZR d) by (rewrite E, plus_IZR, mult_IZR; field; lra).
  rewrite Eq in H. assert (Hr : IZR r = IZR r / IZR d * IZR d) by (field; lra). set (x := IZR r / IZR d) in *.
  assert (B0 : 0 <= IZR r) by (apply IZR_le; lia). assert (B1 : IZR r < IZR d) by (apply IZR_lt; lia).
  destruct (Z.compare_spec (2 * r) d) as [C|C|C].
  - destruct (Z.even a) eqn:Ea; [exact Ea|]. rewrite Z.add_1_r, Z.even_succ, <- Z.negb_even, Ea. reflexivity.
  - exfalso. assert (X : 2 * IZR r < IZR d) by (rewrite <- mult_IZR; now apply IZR_lt). assert (0 <= x < / 2) by nra.
    unfold Rabs in H. destruct (Rcase_abs _); lra.
  - exfalso. assert (X : IZR d < 2 * IZR r) by (rewrite <- mult_IZR; now apply IZR_lt). assert (/ 2 < x < 1) by nra.
    rewrite plus_IZR in H. unfold Rabs in H. destruct (Rcase_abs _); lra.
Qed.

Lemma round_half_even_le n d n' d' : (0 < d)%Z -> (0 < d')%Z -> IZR n / IZR d <= IZR n' / IZR d' ->
  (round_half_even n d <= round_half_even n' d')%Z.
Proof.
  intros Hd Hd' H. pose proof (round_half_even_spec n d Hd) as S1. pose proof (round_half_even_spec n' d' Hd') as S2.
  pose proof (round_half_even_tie n d Hd) as T1. pose proof (round_half_even_tie n' d' Hd') as T2.
  set (a := round_half_even n d) in *. set (b := round_half_even n' d') in *. set (p := IZR n / IZR d) in *. set (q := IZR n' / IZR d') in *.
  apply Z.nlt_ge. intros L. apply Rabs_le_inv in S1. apply Rabs_le_inv in S2.
  assert (X : IZR a <= IZR b + 1) by lra. rewrite <- plus_IZR in X. apply le_IZR in X. assert (Eab : a = (b + 1)%Z) by lia.
  assert (Ea : IZR a = IZR b + 1) by (rewrite Eab; apply plus_IZR).
  assert (Ev1 : Z.even a = true) by (apply T1; rewrite Rabs_pos_eq; lra).
  assert (Ev2 : Z.even b = true) by (apply T2; rewrite Rabs_left; lra).
  rewrite Eab, Z.add_1_r, Z.even_succ, <- Z.negb_even, Ev2 in Ev1. discriminate.
Qed.

Lemma six_digits_value n d m k : (0 < n)%Z -> (0 < d)%Z -> six_digits n d = (m, k) ->
  IZR m * 10^^ (k - 5) = IZR (scaled (exponent10 n d - 5) n d) * 10^^ (exponent10 n d - 5) /\ 10^^ (exponent10 n d) <= IZR m * 10^^ (k - 5).
Proof.
  intros Hn Hd E. destruct (six_digits_spec n d m k Hn Hd E) as (Hm & _ & K & _). unfold six_digits in E. set (e := exponent10 n d) in *.
  set (s := scaled (e - 5) n d) in *. pose proof (pow10_pos (e - 5)) as P.
  assert (E1 : 10^^ e = 100000 * 10^^ (e - 5)) by (replace e with (e - 5 + 5)%Z at 1 by lia; rewrite bpow_plus; simpl (10^^ 5); ring).
  assert (V : IZR m * 10^^ (k - 5) = IZR s * 10^^ (e - 5)).
  { destruct (Z.eqb_spec s (10 ^ 6)) as [Es|Es].
    - assert (Em : m = (10 ^ 5)%Z) by congruence. assert (Ek : k = (e + 1)%Z) by congruence. subst m k. rewrite Es.
      replace (e + 1 - 5)%Z with (e - 5 + 1)%Z by lia. rewrite bpow_plus. simpl (10^^ 1). change (IZR (10 ^ 5)) with 100000. change (IZR (10 ^ 6)) with 1000000. ring.
    - assert (Em : m = s) by congruence. assert (Ek : k = e) by congruence. now subst m k. }
  split; [exact V|]. rewrite E1. destruct K as [->|[-> Em]].
  - apply Rmult_le_compat_r; [lra|]. apply (IZR_le (10 ^ 5)). lia.
  - subst m. replace (e + 1 - 5)%Z with (e - 5 + 1)%Z by lia. rewrite bpow_plus. simpl (10^^ 1). change (IZR (10 ^ 5)) with 100000. nra.
Qed.

Lemma six_digits_le n d m k n' d' m' k' : (0 < n)%Z -> (0 < d)%Z -> (0 < n')%Z -> (0 < d')%Z ->
  six_digits n d = (m, k) -> six_digits n' d' = (m', k') -> IZR n / IZR d <= IZR n' / IZR d' ->
  IZR m * 10^^ (k - 5) <= IZR m' * 10^^ (k' - 5).
Proof.
  intros Hn Hd Hn' Hd' E E' H. destruct (six_digits_spec n d m k Hn Hd E) as (_ & _ & _ & U).
  destruct (six_digits_value n d m k Hn Hd E) as [V _]. destruct (six_digits_value n' d' m' k' Hn' Hd' E') as [V' L'].
  pose proof (exponent10_spec n d Hd Hn) as [A B]. pose proof (exponent10_spec n' d' Hd' Hn') as [A' B'].
  set (e := exponent10 n d) in *. set (e' := exponent10 n' d') in *.
  assert (Le : (e < e' + 1)%Z) by (apply pow10_lt_inv; lra).
  destruct (Z.eq_dec e e') as [Ee|Ne].
  - rewrite V, V', <- Ee. apply Rmult_le_compat_r; [apply bpow_ge_0|]. apply IZR_le.
    destruct (scaled_as (e - 5) n d Hd) as (n1 & d1 & P1 & -> & Q1). destruct (scaled_as (e - 5) n' d' Hd') as (n2 & d2 & P2 & -> & Q2).
    apply round_half_even_le; auto. rewrite Q1, Q2. apply Rmult_le_compat_r; [apply bpow_ge_0|exact H].
  - eapply Rle_trans; [exact U|]. eapply Rle_trans; [|exact L']. apply bpow_le. lia.
Qed.

(** The decimal number written for a finite double. *)
Definition printed (x : b64) : R :=
  match x with
  | B754_finite s m e _ => let (n, d) := fraction_of m e in let (dg, k) := six_digits n d in with_sign s (IZR dg * 10^^ (k - 5))
  | _ => 0
  end.

Lemma reread_printed (x : b64) : is_finite x = true -> B2R (atof (to_string6 x)) = rnd (printed x).
Proof.
  intros Fx. destruct x as [s|s| |s m e B]; try discriminate.
  - rewrite C103_special by reflexivity. cbn [B2R printed]. symmetry. apply round_0. typeclasses eauto.
  - unfold printed. destruct (fraction_of m e) as [n d] eqn:Ef. destruct (six_digits n d) as [dg k] eqn:Es. now apply (written s m e B dg k n d Ef Es).
Qed.

Lemma printed_cases (x : b64) : is_finite x = true -> (B2R x = 0 /\ printed x = 0) \/
  exists s n d dg k, (0 < n)%Z /\ (0 < d)%Z /\ six_digits n d = (dg, k) /\ B2R x = with_sign s (IZR n / IZR d) /\ printed x = with_sign s (IZR dg * 10^^ (k - 5)) /\
    0 < IZR n / IZR d /\ 0 < IZR dg * 10^^ (k - 5).
Proof.
  intros Fx. destruct x as [s|s| |s m e B]; try discriminate; [now left|right].
  destruct (fraction_of m e) as [n d] eqn:Ef. destruct (six_digits n d) as [dg k] eqn:Es. exists s, n, d, dg, k.
  destruct (written s m e B dg k n d Ef Es) as (_ & _ & Ex & Hn & Hd & Hq). repeat split; auto.
  - unfold printed. now rewrite Ef, Es.
  - apply Rdiv_lt_0_compat; now apply IZR_lt.
  - now apply (six_digits_fit n d dg k).
Qed.

(** The order of numbers is preserved, though different numbers may become equal. *)
Theorem C103_order : forall x y : b64, is_finite x = true -> is_finite y = true -> B2R x <= B2R y ->
  B2R (atof (to_string6 x)) <= B2R (atof (to_string6 y)).
Proof.
  intros x y Fx Fy H. rewrite !reread_printed by assumption. apply round_le; [exact (fexp_correct 53 1024 eq_refl)|typeclasses eauto|].
  destruct (printed_cases x Fx) as [[X1 X2]|(s & n & d & dg & k & Hn & Hd & E & X1 & X2 & P1 & P2)];
  destruct (printed_cases y Fy) as [[Y1 Y2]|(s' & n' & d' & dg' & k' & Hn' & Hd' & E' & Y1 & Y2 & P1' & P2')]; rewrite X1, Y1 in H; rewrite X2, Y2.
  - lra.
  - destruct s'; cbn [with_sign] in *; lra.
  - destruct s; cbn [with_sign] in *; lra.
  - destruct s, s'; cbn [with_sign] in *; try lra.
    + apply Ropp_le_contravar. apply (six_digits_le n' d' dg' k' n d dg k); auto. lra.
    + now apply (six_digits_le n d dg k n' d' dg' k').
Qed.

(** ** Different numbers with the same text *)

Lemma six_digits_of n d m k : (0 < n)%Z -> (0 < d)%Z -> (10 ^ 5 < m < 10 ^ 6)%Z ->
  Rabs (IZR n / IZR d - IZR m * 10^^ (k - 5)) < / 2 * 10^^ (k - 5) -> six_digits n d = (m, k).
Proof.
  intros Hn Hd Hm H. rewrite Rabs_minus_sym in H. apply Rabs_lt_inv in H as H'. unfold six_digits.
  pose proof (exponent10_spec n d Hd Hn) as [A B]. set (e := exponent10 n d) in *. set (q := IZR n / IZR d) in *.
  pose proof (pow10_pos (k - 5)) as P. assert (M : 100001 <= IZR m <= 999999) by (split; apply IZR_le; lia).
  assert (K1 : 10^^ k = 100000 * 10^^ (k - 5)) by (replace k with (k - 5 + 5)%Z at 1 by lia; rewrite bpow_plus; simpl (10^^ 5); ring).
  assert (K2 : 10^^ (k + 1) = 1000000 * 10^^ (k - 5)) by (replace (k + 1)%Z with (k - 5 + 6)%Z by lia; rewrite bpow_plus; simpl (10^^ 6); ring).
  assert (X1 : (k < e + 1)%Z) by (apply pow10_lt_inv; nra). assert (X2 : (e < k + 1)%Z) by (apply pow10_lt_inv; nra).
  replace e with k by lia. rewrite (scaled_unique (k - 5) n d m Hd H). destruct (Z.eqb_spec m (10 ^ 6)); [lia|reflexivity].
Qed.

(** Positive numbers in the same interval of the sixth digit have the same text. *)
Theorem C103_same_text : forall (x y : b64) m k, is_finite x = true -> is_finite y = true -> (10 ^ 5 < m < 10 ^ 6)%Z ->
  Rabs (B2R x - IZR m * 10^^ (k - 5)) < / 2 * 10^^ (k - 5) -> Rabs (B2R y - IZR m * 10^^ (k - 5)) < / 2 * 10^^ (k - 5) ->
  to_string6 x = to_string6 y.
Proof.
  intros x y m k Fx Fy Hm Hx Hy.
  assert (W : forall z : b64, is_finite z = true -> Rabs (B2R z - IZR m * 10^^ (k - 5)) < / 2 * 10^^ (k - 5) -> to_string6 z = general_text m k).
  { intros z Fz Hz. pose proof (pow10_pos (k - 5)) as P. assert (M : 100001 <= IZR m) by (apply IZR_le; lia). apply Rabs_lt_inv in Hz as Hz'.
    assert (Pz : 0 < B2R z) by nra. destruct z as [s|s| |s mz ez B]; try discriminate; [cbn [B2R] in Pz; lra|].
    destruct (fraction_of mz ez) as [n d] eqn:Ef. destruct (six_digits n d) as [dg kk] eqn:Es.
    destruct (written s mz ez B dg kk n d Ef Es) as (_ & _ & Ex & Hn & Hd & _). rewrite Ex in *.
    assert (Q : 0 < IZR n / IZR d) by (apply Rdiv_lt_0_compat; now apply IZR_lt).
    destruct s; cbn [with_sign] in *; [lra|]. cbn [to_string6]. rewrite Ef, (six_digits_of n d m k Hn Hd Hm Hz). reflexivity. }
  now rewrite (W x), (W y).
Qed.

(** Seconds since 1970: all times within 5000 seconds of 1400000000 (May 2014) are written alike. *)
Theorem C103_unix_times : forall t : b64, is_finite t = true -> Rabs (B2R t - 1400000000) < 5000 ->
  to_string6 t = list_ascii_of_string "1.4e+09" /\ val (atof (to_string6 t)) 1400000000.
Proof.
  intros t Ft Ht. assert (V : val (nofZ 1400000000 : b64) 1400000000) by (apply (val_int 1400000000); vm_compute; discriminate).
  assert (E : to_string6 t = to_string6 (nofZ 1400000000)).
  { assert (P4 : 10^^ (9 - 5) = 10000) by (cbv -[IZR]; reflexivity).
    apply (C103_same_text t _ 140000 9); auto; try lia; try reflexivity; rewrite P4.
    - replace (140000 * 10000) with 1400000000 by ring. lra.
    - rewrite (proj2 V). replace (1400000000 - 140000 * 10000) with 0 by ring. rewrite Rabs_R0. lra. }
  assert (P8 : 14 * 10^^ 8 = 1400000000) by (simpl (10^^ 8); lra).
  rewrite E. assert (T : to_string6 (nofZ 1400000000 : b64) = list_ascii_of_string "1.4e+09") by (vm_compute; reflexivity).
  split; [exact T|]. rewrite (C103_six_digit_numbers _ 14 8); auto; try reflexivity; try lia.
  - rewrite P8, Rabs_pos_eq by lra. split.
    + apply Rle_trans with (bpow radix2 0); [apply bpow_le; lia|simpl; lra].
    + apply Rle_trans with (bpow radix2 31); [simpl; lra|apply bpow_le; lia].
  - rewrite P8, (proj2 V). symmetry. now apply (rnd_val (nofZ 1400000000)).
Qed.

(** ** Files *)

Lemma harmless_plain t : harmless t -> plain t.
Proof.
  intros H. unfold harmless in H. rewrite Forall_forall in H. split; intros X; apply H in X; cbn in X;
    repeat (destruct X as [X|X]; [discriminate X|]); exact X.
Qed.

Lemma to_string6_format : plain_format to_string6.
Proof. split; intros x; destruct (to_string6_harmless x) as [A B]; [now apply harmless_plain|exact B]. Qed.

(** Two vectors of doubles agree up to the error of one number written and read. *)
Definition close_vectors (v w : list b64) : Prop :=
  Forall2 (fun x y => is_finite y = true /\ Rabs (B2R y - B2R x) <= / 100000 * Rabs (B2R x)) v w.

(** A file of times and values: the values come back with an error of at most 1/100000 of each
    entry; in place of the times come the first entries of the values (C46). *)
Theorem C103_file : forall dim (times : list b64) (values : list (list b64)), times <> [] -> length times = length values ->
  (1 <= dim)%nat -> small (dim + 1) -> (forall v, In v values -> length v = dim /\ Forall (fun x => is_finite x = true) v) ->
  exists file times' values', write_time_vector_csv to_string6 times values = Ok file /\
    load_time_vector_csv atof file = Ok (times', values') /\ Forall2 close_vectors values values' /\
    times' = map (fun v => nth 0 v (nofZ 0)) values'.
Proof.
  intros dim times values Hne Hl Hd Hs Hv.
  destruct (C46_loaded_columns b64 to_string6 atof dim times values (nofZ 0) to_string6_format Hne Hl Hd Hs (fun v H => proj1 (Hv v H))) as (file & Hw & Hld).
  exists file. eexists. eexists. split; [exact Hw|]. split; [exact Hld|]. split.
  - clear Hld Hw Hl. induction values as [|v values IH]; [constructor|]. cbn [map]. constructor; [|apply IH; intros w Hw; apply Hv; now right].
    destruct (Hv v (or_introl eq_refl)) as [_ Fv]. clear - Fv. induction Fv as [|x v Fx Fv IH]; [constructor|]. cbn [map]. constructor; [|exact IH].
    now apply C103_kept.
  - rewrite map_map. apply map_ext_in. intros v Hin. destruct (Hv v Hin) as [Lv _]. destruct v as [|x v]; [simpl in Lv; lia|reflexivity].
Qed.

Example C103_example :
  to_string6 (ndiv (nofZ 1) (nofZ 3)) = list_ascii_of_string "0.333333" /\
  to_string6 (nofZ 123456789) = list_ascii_of_string "1.23457e+08" /\
  to_string6 (ndiv (nofZ 1) (nofZ 10)) = list_ascii_of_string "0.1" /\
  atof (to_string6 (ndiv (nofZ 1) (nofZ 10))) = ndiv (nofZ 1) (nofZ 10) /\
  to_string6 (nofZ 1400000000) = to_string6 (nofZ 1400004999) /\
  close_vectors [nofZ 1234567] [nofZ 1234570].
Proof.
  repeat (split; [first [apply B2SF_inj; vm_compute; reflexivity | vm_compute; reflexivity]|]).
  constructor; [|constructor]. destruct (val_int 1234567 ltac:(lia)) as [F1 E1]. destruct (val_int 1234570 ltac:(lia)) as [F2 E2].
  split; [exact F2|]. rewrite E1, E2. rewrite !Rabs_pos_eq by lra. lra.
Qed.

(** The statement one would expect of a saved file is false: two different times may be read back as the same time. *)
Theorem C103_distinct_refuted : ~ (forall x y : b64, is_finite x = true -> is_finite y = true -> B2R x < B2R y ->
  B2R (atof (to_string6 x)) < B2R (atof (to_string6 y))).
Proof.
  intros H. destruct (val_int 1400000000 ltac:(lia)) as [F1 E1]. destruct (val_int 1400004999 ltac:(lia)) as [F2 E2].
  specialize (H (nofZ 1400000000) (nofZ 1400004999) F1 F2 ltac:(rewrite E1, E2; lra)).
  destruct (C103_unix_times (nofZ 1400000000) F1 ltac:(rewrite E1; rewrite Rabs_pos_eq; lra)) as [_ [_ A]].
  destruct (C103_unix_times (nofZ 1400004999) F2 ltac:(rewrite E2; rewrite Rabs_pos_eq; lra)) as [_ [_ B]].
  rewrite A, B in H. lra.
Qed.
