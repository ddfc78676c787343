(** * Instances of the order on times: integers (for examples) and real numbers *)

From Coq Require Import ZArith Bool Reals Lra Lia.
From Verif Require Import TimeOrder.

#[global] Instance Z_TimeOps : TimeOps Z := { tlt := Z.ltb; tnum _ := true; tzero := 0%Z }.

#[global] Instance Z_TimeLaws : TimeLaws Z.
Proof.
  split; simpl.
  - reflexivity.
  - intros a. apply Z.ltb_irrefl.
  - intros a b c. rewrite !Z.ltb_lt. lia.
  - intros a b c. rewrite !Z.ltb_lt. lia.
Qed.

(** Comparison of reals as a boolean. *)
Definition Rltb (a b : R) : bool := if Rlt_dec a b then true else false.

Lemma Rltb_lt a b : Rltb a b = true <-> (a < b)%R.
Proof. unfold Rltb. destruct (Rlt_dec a b); split; auto; discriminate. Qed.

Lemma Rltb_ge a b : Rltb a b = false <-> (b <= a)%R.
Proof.
  unfold Rltb. destruct (Rlt_dec a b); split; intros; try discriminate; try lra; auto.
Qed.

#[global] Instance R_TimeOps : TimeOps R := { tlt := Rltb; tnum _ := true; tzero := 0%R }.

#[global] Instance R_TimeLaws : TimeLaws R.
Proof.
  split; simpl.
  - reflexivity.
  - intros a. apply Rltb_ge. lra.
  - intros a b c. rewrite !Rltb_lt. lra.
  - intros a b c. rewrite !Rltb_lt. lra.
Qed.

Lemma teq_R a b : teq a b = true <-> (a = b :> R).
Proof.
  rewrite teq_spec. simpl. rewrite !Rltb_ge. lra.
Qed.

Lemma tle_R a b : tle a b = true <-> (a <= b)%R.
Proof. unfold tle. simpl. rewrite negb_true_iff. apply Rltb_ge. Qed.
