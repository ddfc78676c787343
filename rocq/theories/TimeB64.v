(** * IEEE binary64 times

    [Time] is [double] (/repo/curves/include/curves/Curve.hpp).  Doubles other than
    NaN, compared with the IEEE comparison, satisfy the laws the manager model
    needs; [-0.0] and [+0.0] are different values of equal rank. *)

From Coq Require Import ZArith Bool Reals Lra Lia.
From Flocq Require Import Core IEEE754.BinarySingleNaN.
From Verif Require Import TimeOrder.

Definition b64 := binary_float 53 1024.

Definition b64_time := { x : b64 | is_nan x = false }.

(** IEEE [<]. *)
Definition b64_ltb (x y : b64) : bool :=
  match Bcompare x y with Some Lt => true | _ => false end.

#[global] Instance b64_TimeOps : TimeOps b64_time :=
  { tlt x y := b64_ltb (proj1_sig x) (proj1_sig y); tnum _ := true; tzero := exist _ (B754_zero false) eq_refl }.

(** Rank of a double on the real line, with the infinities beyond all finite values. *)
Definition rank (x : b64) : R :=
  match x with
  | B754_infinity s => if s then (- bpow radix2 1024)%R else bpow radix2 1024
  | _ => B2R x
  end.

Lemma rank_finite (x : b64) : is_finite x = true -> (Rabs (rank x) < bpow radix2 1024)%R.
Proof.
  intros Hf. replace (rank x) with (B2R x) by (destruct x; simpl in *; auto; discriminate).
  apply abs_B2R_lt_emax.
Qed.

Lemma compare_rank (x y : b64) :
  is_nan x = false -> is_nan y = false -> Bcompare x y = Some (Rcompare (rank x) (rank y)).
Proof.
  intros Hx Hy.
  destruct (is_finite x) eqn:Fx, (is_finite y) eqn:Fy.
  - rewrite Bcompare_correct by assumption. destruct x, y; simpl in *; try discriminate; reflexivity.
  - pose proof (rank_finite x Fx) as A. apply Rabs_def2 in A.
    destruct y as [|[]| |]; simpl in Fy, Hy; try discriminate;
    destruct x as [|[]| |]; simpl in Fx; try discriminate; unfold rank in *; cbv [Bcompare B2SF SpecFloat.SFcompare];
    f_equal; symmetry; first [apply Rcompare_Gt; lra | apply Rcompare_Lt; lra].
  - pose proof (rank_finite y Fy) as A. apply Rabs_def2 in A.
    destruct x as [|[]| |]; simpl in Fx, Hx; try discriminate;
    destruct y as [|[]| |]; simpl in Fy; try discriminate; unfold rank in *; cbv [Bcompare B2SF SpecFloat.SFcompare];
    f_equal; symmetry; first [apply Rcompare_Gt; lra | apply Rcompare_Lt; lra].
  - assert (P : (0 < bpow radix2 1024)%R) by apply bpow_gt_0.
    destruct x as [|[]| |], y as [|[]| |]; simpl in Fx, Fy, Hx, Hy; try discriminate;
    unfold rank; cbv [Bcompare B2SF SpecFloat.SFcompare]; f_equal; symmetry;
    first [apply Rcompare_Eq; reflexivity | apply Rcompare_Gt; lra | apply Rcompare_Lt; lra].
Qed.

Lemma ltb_rank (x y : b64_time) :
  tlt x y = true <-> (rank (proj1_sig x) < rank (proj1_sig y))%R.
Proof.
  destruct x as [x Hx], y as [y Hy]. simpl. unfold b64_ltb. rewrite compare_rank by assumption.
  destruct (Rcompare_spec (rank x) (rank y)); split; intros; try discriminate; try lra; auto.
Qed.

#[global] Instance b64_TimeLaws : TimeLaws b64_time.
Proof.
  split.
  - reflexivity.
  - intros a. destruct (tlt a a) eqn:E; auto. apply ltb_rank in E. lra.
  - intros a b c. rewrite !ltb_rank. lra.
  - intros a b c. rewrite !ltb_rank. lra.
Qed.

(** Signed zeros are one time. *)
Example zeros_equal :
  teq (exist _ (B754_zero false) eq_refl : b64_time) (exist _ (B754_zero true) eq_refl) = true.
Proof. reflexivity. Qed.
