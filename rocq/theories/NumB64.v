(** * IEEE binary64 arithmetic

    C++ [double] with rounding to nearest even, as formalised by Flocq
    (BinarySingleNaN: NaN payloads are not distinguished).  The operations are
    taken to be executed as written: no extended precision, no fused
    multiply-add and no reassociation by the compiler. *)

From Coq Require Import ZArith Bool Reals Lra Lia List.
From Flocq Require Import Core IEEE754.BinarySingleNaN Plus_error.
From Verif Require Import Base TimeOrder TimeB64 Num.

#[local] Instance prec_gt_0_53 : Prec_gt_0 53. Proof. reflexivity. Qed.
#[local] Instance prec_lt_emax_53 : Prec_lt_emax 53 1024. Proof. reflexivity. Qed.

#[global] Instance b64_Num : Num b64 := {
  nofZ := fun z => binary_normalize 53 1024 _ _ mode_NE z 0 false;
  nadd := Bplus mode_NE; nsub := Bminus mode_NE; nmul := Bmult mode_NE; ndiv := Bdiv mode_NE;
  nopp := Bopp; nltb := Bltb; nleb := Bleb; neqb := Beqb
}.

(** Comparison of plain doubles; the laws hold on the subset without NaN ([TimeB64.v]). *)
#[global] Instance b64_raw_TimeOps : TimeOps b64 := { tlt := b64_ltb; tnum x := negb (is_nan x); tzero := B754_zero false }.

Local Open Scope R_scope.
Local Notation rnd := (round radix2 (SpecFloat.fexp 53 1024) ZnearestE).

(** [x] is a finite double with value [r]. *)
Definition val (x : b64) (r : R) : Prop := is_finite x = true /\ B2R x = r.

Lemma finite_val x : is_finite x = true -> val x (B2R x).
Proof. split; auto. Qed.

Lemma val_bound x r : val x r -> Rabs r < bpow radix2 1024.
Proof. intros [_ <-]. apply abs_B2R_lt_emax. Qed.

Lemma val_format x r : val x r -> generic_format radix2 (SpecFloat.fexp 53 1024) r.
Proof. intros [_ <-]. apply generic_format_B2R. Qed.

Lemma rnd_val x r : val x r -> rnd r = r.
Proof. intros Hx. apply round_generic; [typeclasses eauto|]. now apply val_format in Hx. Qed.

Lemma val_nan x r : val x r -> is_nan x = false.
Proof. intros [Hf _]. now destruct x. Qed.

(** The general form: the rounded result if that does not overflow. *)
Lemma val_add_rnd x y a b : val x a -> val y b -> Rabs (rnd (a + b)) < bpow radix2 1024 ->
  val (nadd x y) (rnd (a + b)).
Proof.
  intros [Fx <-] [Fy <-] Hb. pose proof (Bplus_correct 53 1024 _ _ mode_NE x y Fx Fy) as P.
  cbn [round_mode] in P. rewrite Rlt_bool_true in P by exact Hb. destruct P as (P1 & P2 & _). split; auto.
Qed.

Lemma val_sub_rnd x y a b : val x a -> val y b -> Rabs (rnd (a - b)) < bpow radix2 1024 ->
  val (nsub x y) (rnd (a - b)).
Proof.
  intros [Fx <-] [Fy <-] Hb. pose proof (Bminus_correct 53 1024 _ _ mode_NE x y Fx Fy) as P.
  cbn [round_mode] in P. rewrite Rlt_bool_true in P by exact Hb. destruct P as (P1 & P2 & _). split; auto.
Qed.

Lemma val_mul_rnd x y a b : val x a -> val y b -> Rabs (rnd (a * b)) < bpow radix2 1024 ->
  val (nmul x y) (rnd (a * b)).
Proof.
  intros [Fx <-] [Fy <-] Hb. pose proof (Bmult_correct 53 1024 _ _ mode_NE x y) as P.
  cbn [round_mode] in P. rewrite Rlt_bool_true in P by exact Hb. destruct P as (P1 & P2 & _).
  rewrite Fx, Fy in P2. split; auto.
Qed.

Lemma val_div_rnd x y a b : val x a -> val y b -> b <> 0 -> Rabs (rnd (a / b)) < bpow radix2 1024 ->
  val (ndiv x y) (rnd (a / b)).
Proof.
  intros [Fx <-] [Fy <-] Hz Hb. pose proof (Bdiv_correct 53 1024 _ _ mode_NE x y Hz) as P.
  cbn [round_mode] in P. rewrite Rlt_bool_true in P by exact Hb. destruct P as (P1 & P2 & _).
  rewrite Fx in P2. split; auto.
Qed.

(** Results that are doubles are computed exactly. *)
Lemma val_add x y z a b : val x a -> val y b -> val z (a + b) -> val (nadd x y) (a + b).
Proof.
  intros Hx Hy Hz. rewrite <- (rnd_val _ _ Hz). apply val_add_rnd; auto.
  rewrite (rnd_val _ _ Hz). now apply val_bound in Hz.
Qed.

Lemma val_sub x y z a b : val x a -> val y b -> val z (a - b) -> val (nsub x y) (a - b).
Proof.
  intros Hx Hy Hz. rewrite <- (rnd_val _ _ Hz). apply val_sub_rnd; auto.
  rewrite (rnd_val _ _ Hz). now apply val_bound in Hz.
Qed.

Lemma val_mul x y z a b : val x a -> val y b -> val z (a * b) -> val (nmul x y) (a * b).
Proof.
  intros Hx Hy Hz. rewrite <- (rnd_val _ _ Hz). apply val_mul_rnd; auto.
  rewrite (rnd_val _ _ Hz). now apply val_bound in Hz.
Qed.

Lemma val_div x y z a b : val x a -> val y b -> b <> 0 -> val z (a / b) -> val (ndiv x y) (a / b).
Proof.
  intros Hx Hy Hb Hz. rewrite <- (rnd_val _ _ Hz). apply val_div_rnd; auto.
  rewrite (rnd_val _ _ Hz). now apply val_bound in Hz.
Qed.

Lemma val_zero s : val (B754_zero s) 0.
Proof. now split. Qed.

Lemma val_one : val Bone 1.
Proof. split; [apply is_finite_Bone|apply Bone_correct]. Qed.

Lemma val_zero_inv x : val x 0 -> exists s, x = B754_zero s.
Proof.
  intros [Hf Hz]. destruct x as [s| | |s m e B]; try discriminate; [eauto|].
  exfalso. simpl in Hz. apply eq_0_F2R in Hz. destruct s; discriminate.
Qed.

Lemma val_inj x y r : r <> 0 -> val x r -> val y r -> x = y.
Proof.
  intros Hr [Fx Hx] [Fy Hy]. apply B2R_inj; try congruence.
  - apply is_finite_strict_B2R. congruence.
  - apply is_finite_strict_B2R. congruence.
Qed.

(** Small integers are doubles. *)
Lemma val_int z : (Z.abs z <= 2 ^ 53)%Z -> val (nofZ z) (IZR z).
Proof.
  intros Hz. assert (G : generic_format radix2 (SpecFloat.fexp 53 1024) (IZR z)).
  { apply (generic_format_FLT radix2 (-1074) 53).
    destruct (Z.eq_dec (Z.abs z) (2 ^ 53)) as [E|E].
    - assert (X : IZR z = F2R (Float radix2 (Z.sgn z) 53)).
      { unfold F2R. simpl. rewrite <- mult_IZR. f_equal. simpl in E |- *. lia. }
      eapply FLT_spec; [exact X| |simpl; lia]. simpl. lia.
    - eapply (FLT_spec radix2 (-1074) 53 _ (Float radix2 z 0)); simpl; try lia.
      unfold F2R. simpl. lra. }
  pose proof (binary_normalize_correct 53 1024 _ _ mode_NE z 0 false) as P. cbn [round_mode] in P.
  assert (X : F2R (Float radix2 z 0) = IZR z) by (unfold F2R; simpl; lra). rewrite X in P.
  rewrite (round_generic radix2 _ _ _ G) in P.
  rewrite Rlt_bool_true in P; [destruct P as (P1 & P2 & _); split; auto|].
  apply Rle_lt_trans with (bpow radix2 53); [|apply bpow_lt; lia].
  rewrite <- abs_IZR. change (bpow radix2 53) with (IZR (2 ^ 53)). now apply IZR_le.
Qed.

Lemma val_mul_0_r x y r : val x r -> val y 0 -> val (nmul x y) 0.
Proof. intros Hx Hy. rewrite <- (Rmult_0_r r). eapply val_mul; eauto. rewrite Rmult_0_r. exact Hy. Qed.

Lemma val_mul_0_l x y r : val x 0 -> val y r -> val (nmul x y) 0.
Proof. intros Hx Hy. rewrite <- (Rmult_0_l r). eapply val_mul; eauto. rewrite Rmult_0_l. exact Hx. Qed.

Lemma val_mul_1_r x y r : val x r -> val y 1 -> val (nmul x y) r.
Proof. intros Hx Hy. rewrite <- (Rmult_1_r r). eapply val_mul; eauto. rewrite Rmult_1_r. exact Hx. Qed.

Lemma val_add_0_r x y r : val x r -> val y 0 -> val (nadd x y) r.
Proof. intros Hx Hy. rewrite <- (Rplus_0_r r). eapply val_add; eauto. rewrite Rplus_0_r. exact Hx. Qed.

Lemma val_add_0_l x y r : val x 0 -> val y r -> val (nadd x y) r.
Proof. intros Hx Hy. rewrite <- (Rplus_0_l r). eapply val_add; eauto. rewrite Rplus_0_l. exact Hy. Qed.

Lemma val_sub_same x y r : val x r -> val y r -> val (nsub x y) 0.
Proof.
  intros Hx Hy. replace 0 with (r - r) by ring. eapply val_sub; eauto.
  replace (r - r) with 0 by ring. apply (val_zero false).
Qed.

Lemma val_div_same x y r : r <> 0 -> val x r -> val y r -> val (ndiv x y) 1.
Proof.
  intros Hr Hx Hy. replace 1 with (r / r) by now field. eapply val_div; eauto.
  replace (r / r) with 1 by now field. apply val_one.
Qed.

Lemma val_div_0 x y r : r <> 0 -> val x 0 -> val y r -> val (ndiv x y) 0.
Proof.
  intros Hr Hx Hy. replace 0 with (0 / r) by now field. eapply val_div; eauto.
  replace (0 / r) with 0 by now field. apply (val_zero false).
Qed.

(** Integer arithmetic on small values. *)
Lemma val_add_int x y a b : val x (IZR a) -> val y (IZR b) -> (Z.abs (a + b) <= 2 ^ 53)%Z ->
  val (nadd x y) (IZR (a + b)).
Proof. intros Hx Hy Hz. rewrite plus_IZR. eapply val_add; eauto. rewrite <- plus_IZR. now apply val_int. Qed.

Lemma val_sub_int x y a b : val x (IZR a) -> val y (IZR b) -> (Z.abs (a - b) <= 2 ^ 53)%Z ->
  val (nsub x y) (IZR (a - b)).
Proof. intros Hx Hy Hz. rewrite minus_IZR. eapply val_sub; eauto. rewrite <- minus_IZR. now apply val_int. Qed.

Lemma val_mul_int x y a b : val x (IZR a) -> val y (IZR b) -> (Z.abs (a * b) <= 2 ^ 53)%Z ->
  val (nmul x y) (IZR (a * b)).
Proof. intros Hx Hy Hz. rewrite mult_IZR. eapply val_mul; eauto. rewrite <- mult_IZR. now apply val_int. Qed.

Lemma val_opp x r : val x r -> val (nopp x) (- r).
Proof. intros [Hf <-]. split; [cbn; now rewrite is_finite_Bopp|cbn; apply B2R_Bopp]. Qed.

(** A difference of different doubles is not zero (gradual underflow). *)
Lemma val_sub_pos x y a b : val x a -> val y b -> b < a -> is_finite (nsub x y) = true ->
  exists d, val (nsub x y) d /\ 0 < d.
Proof.
  intros Hx Hy Hlt Hf. exists (B2R (nsub x y)). split; [now apply finite_val|].
  pose proof (val_format _ _ Hx) as Ga. pose proof (val_format _ _ Hy) as Gb.
  destruct Hx as [Fx Ex], Hy as [Fy Ey].
  pose proof (Bminus_correct 53 1024 _ _ mode_NE x y Fx Fy) as P. cbn [round_mode] in P. rewrite Ex, Ey in P.
  destruct (Rlt_bool _ _).
  - destruct P as (P1 & _ & _). change (nsub x y) with (Bminus mode_NE x y). rewrite P1.
    assert (N : rnd (a + - b) <> 0).
    { apply round_plus_neq_0; auto; try typeclasses eauto; [now apply generic_format_opp | lra]. }
    assert (L : 0 <= rnd (a - b)) by (apply round_ge_generic; try typeclasses eauto; [apply generic_format_0|lra]).
    unfold Rminus in *. lra.
  - destruct P as (P1 & _). exfalso. change (nsub x y) with (Bminus mode_NE x y) in Hf.
    rewrite <- is_finite_SF_B2SF, P1 in Hf. discriminate.
Qed.

(** Subtraction depends on the values only. *)
Lemma val_sub_cong x y z a b d : val x a -> val y a -> val z b -> val (nsub x z) d -> val (nsub y z) d.
Proof.
  intros [Fx Ex] [Fy Ey] [Fz Ez] [Fd Ed].
  pose proof (Bminus_correct 53 1024 _ _ mode_NE x z Fx Fz) as P1.
  pose proof (Bminus_correct 53 1024 _ _ mode_NE y z Fy Fz) as P2. rewrite Ex in P1. rewrite Ey in P2.
  destruct (Rlt_bool _ _).
  - destruct P1 as (P1 & _ & _), P2 as (P2 & Q2 & _). split; [exact Q2|]. rewrite <- Ed. cbn. now rewrite P1, P2.
  - exfalso. destruct P1 as [P1 _]. cbn in Fd. rewrite <- is_finite_SF_B2SF, P1 in Fd. discriminate.
Qed.

(** C++ [==] on finite doubles is equality of values. *)
Lemma val_eqb x y r : val x r -> val y r -> neqb x y = true.
Proof.
  intros [Fx Ex] [Fy Ey]. cbn. rewrite Beqb_correct by assumption. rewrite Ex, Ey. now apply Req_bool_true.
Qed.

Lemma eqb_val x y r : val y r -> neqb x y = true -> val x r.
Proof.
  intros [Fy <-] E. destruct (is_finite x) eqn:Fx.
  - cbn in E. rewrite Beqb_correct in E by assumption. split; auto. revert E. now destruct (Req_bool_spec (B2R x) (B2R y)).
  - exfalso. destruct x as [| | |]; try discriminate; destruct y as [[]| | |[]]; try discriminate;
    destruct s; try discriminate.
Qed.

Lemma ltb_val x y a b : val x a -> val y b -> (b64_ltb x y = true <-> a < b).
Proof.
  intros [Fx <-] [Fy <-]. unfold b64_ltb. rewrite Bcompare_correct by assumption.
  destruct (Rcompare_spec (B2R x) (B2R y)); split; intros; try discriminate; try lra; auto.
Qed.

(** NaN is absorbing. *)
Lemma nan_add_l x y : is_nan x = true -> is_nan (nadd x y) = true.
Proof. destruct x; try discriminate. now destruct y. Qed.
Lemma nan_add_r x y : is_nan y = true -> is_nan (nadd x y) = true.
Proof. destruct y; try discriminate. now destruct x. Qed.
Lemma nan_mul_l x y : is_nan x = true -> is_nan (nmul x y) = true.
Proof. destruct x; try discriminate. now destruct y. Qed.
Lemma nan_mul_r x y : is_nan y = true -> is_nan (nmul x y) = true.
Proof. destruct y; try discriminate. now destruct x. Qed.
