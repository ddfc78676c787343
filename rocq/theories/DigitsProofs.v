(** * Proofs about numbers as text *)

From Coq Require Import List Bool Arith ZArith Reals Lra Lia Ascii.
From Flocq Require Import Core IEEE754.BinarySingleNaN.
From Verif Require Import Base TimeB64 Csv Digits.
Import ListNotations.
Local Open Scope R_scope.

Definition radix10 : radix := Build_radix 10 eq_refl.

Notation "10^^ k" := (bpow radix10 k) (at level 30, format "10^^ k").

Lemma pow10_pos k : 0 < 10^^ k.
Proof. apply bpow_gt_0. Qed.

Lemma pow10_IZR k : (0 <= k)%Z -> IZR (10 ^ k) = 10^^ k.
Proof. intros H. exact (IZR_Zpower radix10 k H). Qed.

Lemma pow10_lt_inv a b : 10^^ a < 10^^ b -> (a < b)%Z.
Proof. apply (lt_bpow radix10). Qed.

(** ** Rounding a fraction *)

Section Fraction.
Variables (n d : Z).
Hypothesis Hd : (0 < d)%Z.
Let q : R := IZR n / IZR d.

Lemma Pd : 0 < IZR d.
Proof. now apply IZR_lt. Qed.

Lemma round_half_even_spec : Rabs (IZR (round_half_even n d) - q) <= / 2.
Proof.
  pose proof Pd as P. unfold round_half_even, q.
  pose proof (Z.div_mod n d ltac:(lia)) as E. pose proof (Z.mod_pos_bound n d Hd) as B.
  set (a := (n / d)%Z) in *. set (r := (n mod d)%Z) in *.
  assert (Eq : IZR n / IZR d = IZR a + IZR r / IZR d).
  { rewrite E, plus_IZR, mult_IZR. field. lra. }
  assert (Hr : forall x, IZR r / IZR d = x -> IZR r = x * IZR d) by (intros x <-; field; lra).
  rewrite Eq. set (x := IZR r / IZR d) in *. specialize (Hr x eq_refl).
  assert (B0 : 0 <= IZR r) by (apply IZR_le; lia).
  destruct (Z.compare_spec (2 * r) d) as [H|H|H].
  - assert (X : 2 * IZR r = IZR d) by (rewrite <- mult_IZR; now f_equal). assert (x = / 2) by nra.
    destruct (Z.even a); rewrite ?plus_IZR; apply Rabs_le; lra.
  - assert (X : 2 * IZR r < IZR d) by (rewrite <- mult_IZR; now apply IZR_lt). assert (0 <= x <= / 2) by nra. apply Rabs_le; lra.
  - assert (X : IZR d < 2 * IZR r) by (rewrite <- mult_IZR; now apply IZR_lt).
    assert (Y : IZR r < IZR d) by (apply IZR_lt; lia). assert (/ 2 <= x <= 1) by nra. rewrite plus_IZR. apply Rabs_le; lra.
Qed.

Lemma round_half_even_unique m : Rabs (IZR m - q) < / 2 -> round_half_even n d = m.
Proof.
  intros H. pose proof round_half_even_spec as G. apply Rabs_lt_inv in H. apply Rabs_le_inv in G.
  assert (A : IZR (round_half_even n d) < IZR (m + 1)) by (rewrite plus_IZR; lra).
  assert (B : IZR m < IZR (round_half_even n d + 1)) by (rewrite plus_IZR; lra).
  apply lt_IZR in A. apply lt_IZR in B. lia.
Qed.

Lemma pow10_le_spec k : pow10_le k n d = true <-> 10^^ k <= q.
Proof.
  pose proof Pd as P. unfold pow10_le, q.
  assert (E : IZR n = IZR n / IZR d * IZR d) by (field; lra). unfold Rdiv in *. set (x := IZR n * / IZR d) in *. clearbody x.
  destruct (Z.leb_spec 0 k) as [Hk|Hk]; rewrite Z.leb_le; split; intros H.
  - apply IZR_le in H. rewrite mult_IZR, pow10_IZR in H by lia. apply Rmult_le_reg_r with (IZR d); [exact P|]. lra.
  - apply le_IZR. rewrite mult_IZR, pow10_IZR by lia. rewrite E. apply Rmult_le_compat_r; lra.
  - apply IZR_le in H. rewrite mult_IZR, pow10_IZR in H by lia.
    apply Rmult_le_reg_r with (10^^ (- k)); [apply pow10_pos|]. rewrite <- bpow_plus. replace (k + - k)%Z with 0%Z by lia. simpl (10^^ 0).
    apply Rmult_le_reg_r with (IZR d); [exact P|]. replace (x * 10^^ (- k) * IZR d) with (x * IZR d * 10^^ (- k)) by ring. rewrite <- E. lra.
  - apply le_IZR. rewrite mult_IZR, pow10_IZR by lia. rewrite E.
    assert (1 <= x * 10^^ (- k)).
    { apply Rmult_le_reg_l with (10^^ k); [apply pow10_pos|]. replace (10^^ k * (x * 10^^ (- k))) with (x * (10^^ k * 10^^ (- k))) by ring.
      rewrite <- bpow_plus. replace (k + - k)%Z with 0%Z by lia. simpl (10^^ 0). lra. }
    replace (x * IZR d * 10^^ (- k)) with (x * 10^^ (- k) * IZR d) by ring. rewrite <- (Rmult_1_l (IZR d)) at 1. apply Rmult_le_compat_r; lra.
Qed.

Lemma climb_spec : forall fuel k, 10^^ k <= q -> q < 10^^ (k + Z.of_nat fuel + 1) ->
  10^^ (climb fuel k n d) <= q < 10^^ (climb fuel k n d + 1).
Proof.
  induction fuel as [|fuel IH]; intros k H1 H2.
  - cbn [climb]. rewrite Z.add_0_r in H2. auto.
  - cbn [climb]. destruct (pow10_le (k + 1) n d) eqn:E.
    + apply IH; [now apply pow10_le_spec|]. replace (k + 1 + Z.of_nat fuel + 1)%Z with (k + Z.of_nat (S fuel) + 1)%Z by lia. exact H2.
    + split; [exact H1|]. apply Rnot_le_lt. rewrite <- pow10_le_spec. now rewrite E.
Qed.

Lemma exponent10_spec : (0 < n)%Z -> 10^^ (exponent10 n d) <= q < 10^^ (exponent10 n d + 1).
Proof.
  intros Hn. pose proof Pd as P. assert (Pn : 1 <= IZR n) by (apply IZR_le; lia).
  pose proof (Z.log2_nonneg n) as L0. pose proof (Z.log2_nonneg d) as L1.
  pose proof (Z.log2_spec n Hn) as [_ N2]. pose proof (Z.log2_spec d Hd) as [_ D2].
  assert (T : forall k, (0 <= k)%Z -> IZR (2 ^ k) <= 10^^ k).
  { intros k Hk. rewrite <- pow10_IZR by exact Hk. apply IZR_le. apply Z.pow_le_mono_l. lia. }
  apply climb_spec.
  - unfold q. apply Rmult_le_reg_r with (IZR d); [exact P|]. replace (IZR n / IZR d * IZR d) with (IZR n) by (field; lra).
    apply Rle_trans with 1; [|exact Pn]. apply Rmult_le_reg_l with (10^^ (Z.log2 d + 1)); [apply pow10_pos|].
    rewrite <- Rmult_assoc, <- bpow_plus. replace (Z.log2 d + 1 + - (Z.log2 d + 1))%Z with 0%Z by lia. simpl (10^^ 0).
    rewrite Rmult_1_l, Rmult_1_r. apply Rle_trans with (IZR (2 ^ (Z.log2 d + 1))); [apply IZR_le; lia|]. apply T. lia.
  - rewrite Z2Nat.id by lia. replace (- (Z.log2 d + 1) + (Z.log2 n + Z.log2 d + 2) + 1)%Z with (Z.log2 n + 2)%Z by lia.
    unfold q. apply Rle_lt_trans with (IZR n).
    + assert (Pd1 : 1 <= IZR d) by (apply IZR_le; lia).
      apply Rmult_le_reg_r with (IZR d); [exact P|]. replace (IZR n / IZR d * IZR d) with (IZR n) by (field; lra). nra.
    + apply Rlt_le_trans with (IZR (2 ^ (Z.log2 n + 1))); [apply IZR_lt; lia|].
      eapply Rle_trans; [apply T; lia|]. apply bpow_le. lia.
Qed.
End Fraction.

Lemma scaled_as k n d : (0 < d)%Z -> exists n' d', (0 < d')%Z /\ scaled k n d = round_half_even n' d' /\ IZR n' / IZR d' = IZR n / IZR d * 10^^ (- k).
Proof.
  intros Hd. pose proof (Pd d Hd) as P. unfold scaled. destruct (Z.leb_spec 0 k) as [Hk|Hk].
  - exists n, (d * 10 ^ k)%Z. pose proof (Z.pow_pos_nonneg 10 k ltac:(lia) Hk). split; [nia|]. split; [reflexivity|].
    rewrite mult_IZR, pow10_IZR, bpow_opp by lia. pose proof (pow10_pos k). field. split; lra.
  - exists (n * 10 ^ (- k))%Z, d. split; [exact Hd|]. split; [reflexivity|]. rewrite mult_IZR, pow10_IZR by lia. field. lra.
Qed.

Lemma scaled_spec k n d : (0 < d)%Z -> Rabs (IZR (scaled k n d) * 10^^ k - IZR n / IZR d) <= / 2 * 10^^ k.
Proof.
  intros Hd. destruct (scaled_as k n d Hd) as (n' & d' & Hd' & -> & E).
  pose proof (round_half_even_spec n' d' Hd') as H. rewrite E in H. set (m := round_half_even n' d') in *. set (q := IZR n / IZR d) in *.
  replace (IZR m * 10^^ k - q) with ((IZR m - q * 10^^ (- k)) * 10^^ k).
  - rewrite Rabs_mult, (Rabs_pos_eq (10^^ k)) by apply bpow_ge_0. apply Rmult_le_compat_r; [apply bpow_ge_0|exact H].
  - rewrite Rmult_minus_distr_r, Rmult_assoc, <- bpow_plus. replace (- k + k)%Z with 0%Z by lia. simpl (10^^ 0). ring.
Qed.

Lemma scaled_unique k n d m : (0 < d)%Z -> Rabs (IZR m * 10^^ k - IZR n / IZR d) < / 2 * 10^^ k -> scaled k n d = m.
Proof.
  intros Hd H. destruct (scaled_as k n d Hd) as (n' & d' & Hd' & -> & E). apply round_half_even_unique; [exact Hd'|]. rewrite E.
  set (q := IZR n / IZR d) in *. apply Rmult_lt_reg_r with (10^^ k); [apply pow10_pos|].
  rewrite <- (Rabs_pos_eq (10^^ k)) at 1 by apply bpow_ge_0. rewrite <- Rabs_mult.
  replace ((IZR m - q * 10^^ (- k)) * 10^^ k) with (IZR m * 10^^ k - q); [exact H|].
  rewrite Rmult_minus_distr_r, Rmult_assoc, <- bpow_plus. replace (- k + k)%Z with 0%Z by lia. simpl (10^^ 0). ring.
Qed.

(** ** Six significant digits *)

Lemma ten_more k a : 10^^ (k + a) = 10^^ k * 10^^ a.
Proof. apply bpow_plus. Qed.

Lemma six_digits_spec n d m k : (0 < n)%Z -> (0 < d)%Z -> six_digits n d = (m, k) ->
  (10 ^ 5 <= m < 10 ^ 6)%Z /\ Rabs (IZR m * 10^^ (k - 5) - IZR n / IZR d) <= / 2 * 10^^ (exponent10 n d - 5) /\
  (k = exponent10 n d \/ (k = exponent10 n d + 1 /\ m = 10 ^ 5)%Z) /\ IZR m * 10^^ (k - 5) <= 10^^ (exponent10 n d + 1).
Proof.
  intros Hn Hd E. unfold six_digits in E. set (e := exponent10 n d) in *.
  pose proof (exponent10_spec n d Hd Hn) as [A B]. fold e in A, B. pose proof (scaled_spec (e - 5) n d Hd) as S.
  set (q := IZR n / IZR d) in *. set (s := scaled (e - 5) n d) in *. pose proof (pow10_pos (e - 5)) as P.
  assert (E1 : 10^^ e = 100000 * 10^^ (e - 5)) by (replace e with (e - 5 + 5)%Z at 1 by lia; rewrite ten_more; simpl (10^^ 5); ring).
  assert (E2 : 10^^ (e + 1) = 1000000 * 10^^ (e - 5)) by (replace (e + 1)%Z with (e - 5 + 6)%Z by lia; rewrite ten_more; simpl (10^^ 6); ring).
  apply Rabs_le_inv in S as S'.
  assert (Lo : (10 ^ 5 <= s)%Z).
  { assert (X : 99999 < IZR s) by nra. apply lt_IZR in X. lia. }
  assert (Hi : (s <= 10 ^ 6)%Z).
  { assert (X : IZR s < 1000001) by nra. apply lt_IZR in X. lia. }
  destruct (Z.eqb_spec s (10 ^ 6)) as [Es|Es].
  - assert (Em : m = (10 ^ 5)%Z) by congruence. assert (Ek : k = (e + 1)%Z) by congruence. clear E. subst m k.
    split; [lia|]. assert (V : IZR (10 ^ 5) * 10^^ (e + 1 - 5) = IZR s * 10^^ (e - 5)).
    { rewrite Es. replace (e + 1 - 5)%Z with (e - 5 + 1)%Z by lia. rewrite ten_more. simpl (10^^ 1). change (IZR (10 ^ 5)) with 100000. change (IZR (10 ^ 6)) with 1000000. ring. }
    rewrite V. split; [exact S|]. split; [right; lia|]. rewrite Es, E2. change (IZR (10 ^ 6)) with 1000000. lra.
  - assert (Em : m = s) by congruence. assert (Ek : k = e) by congruence. clear E. subst m k.
    split; [lia|]. split; [exact S|]. split; [left; reflexivity|]. rewrite E2. apply Rmult_le_compat_r; [lra|]. change 1000000 with (IZR (10 ^ 6)). apply IZR_le. exact Hi.
Qed.

Lemma six_digits_error n d m k : (0 < n)%Z -> (0 < d)%Z -> six_digits n d = (m, k) ->
  Rabs (IZR m * 10^^ (k - 5) - IZR n / IZR d) <= 5 / 1000000 * (IZR n / IZR d).
Proof.
  intros Hn Hd E. destruct (six_digits_spec n d m k Hn Hd E) as (_ & A & _ & _). eapply Rle_trans; [exact A|].
  pose proof (exponent10_spec n d Hd Hn) as [B _]. set (e := exponent10 n d) in *.
  replace e with (e - 5 + 5)%Z in B by lia. rewrite ten_more in B. simpl (10^^ 5) in B. lra.
Qed.

(** The digits of a number close to a number with six digits. *)
Lemma six_digits_unique n d m k : (0 < n)%Z -> (0 < d)%Z -> (10 ^ 5 <= m < 10 ^ 6)%Z ->
  Rabs (IZR m * 10^^ (k - 5) - IZR n / IZR d) < / 20 * 10^^ (k - 5) -> six_digits n d = (m, k).
Proof.
  intros Hn Hd Hm H. unfold six_digits. set (e := exponent10 n d) in *. pose proof (exponent10_spec n d Hd Hn) as [A B]. fold e in A, B.
  set (q := IZR n / IZR d) in *. apply Rabs_lt_inv in H as H'. pose proof (pow10_pos (k - 5)) as P.
  assert (M : 100000 <= IZR m <= 999999) by (split; apply IZR_le; lia).
  assert (K1 : 10^^ k = 100000 * 10^^ (k - 5)) by (replace k with (k - 5 + 5)%Z at 1 by lia; rewrite ten_more; simpl (10^^ 5); ring).
  assert (K2 : 10^^ (k + 1) = 1000000 * 10^^ (k - 5)) by (replace (k + 1)%Z with (k - 5 + 6)%Z by lia; rewrite ten_more; simpl (10^^ 6); ring).
  assert (K0 : 10^^ (k - 1) = 10000 * 10^^ (k - 5)) by (replace (k - 1)%Z with (k - 5 + 4)%Z by lia; rewrite ten_more; simpl (10^^ 4); ring).
  assert (X1 : (k - 1 < e + 1)%Z) by (apply pow10_lt_inv; nra).
  assert (X2 : (e < k + 1)%Z) by (apply pow10_lt_inv; nra).
  assert (e = k \/ e = k - 1)%Z as [Ee|Ee] by lia.
  - rewrite Ee. rewrite (scaled_unique (k - 5) n d m Hd); [|apply Rabs_lt; fold q; lra].
    destruct (Z.eqb_spec m (10 ^ 6)); [lia|reflexivity].
  - assert (Em : m = (10 ^ 5)%Z).
    { rewrite Ee in B. replace (k - 1 + 1)%Z with k in B by lia. assert (Y : IZR m < 100001) by nra. apply lt_IZR in Y. lia. }
    rewrite Ee. replace (k - 1 - 5)%Z with (k - 6)%Z by lia.
    assert (K6 : 10^^ (k - 5) = 10 * 10^^ (k - 6)) by (replace (k - 5)%Z with (k - 6 + 1)%Z by lia; rewrite ten_more; simpl (10^^ 1); ring).
    rewrite (scaled_unique (k - 6) n d (10 ^ 6)%Z Hd).
    + rewrite Z.eqb_refl. subst m. f_equal. lia.
    + fold q. subst m. change (IZR (10 ^ 6)) with 1000000. change (IZR (10 ^ 5)) with 100000 in H'. rewrite K6 in H'. apply Rabs_lt. lra.
Qed.

(** ** Digits as characters *)

Definition is_digit (v : Z) : Prop := (0 <= v < 10)%Z.

Lemma digit_cases v : is_digit v -> (v = 0 \/ v = 1 \/ v = 2 \/ v = 3 \/ v = 4 \/ v = 5 \/ v = 6 \/ v = 7 \/ v = 8 \/ v = 9)%Z.
Proof. unfold is_digit. lia. Qed.

Ltac each_digit H := destruct (digit_cases _ H) as [->|[->|[->|[->|[->|[->|[->|[->|[->| ->]]]]]]]]].

Lemma digit_read v : is_digit v -> digit_value (digit v) = Some v.
Proof. intros H. each_digit H; reflexivity. Qed.

Definition digits_ok (l : list Z) : Prop := Forall is_digit l.
Definition number_of (acc : Z) (l : list Z) : Z := fold_left (fun a v => a * 10 + v)%Z l acc.

Lemma number_app acc l l' : number_of acc (l ++ l') = number_of (number_of acc l) l'.
Proof. apply fold_left_app. Qed.

Lemma number_shift l : forall acc, (number_of acc l = acc * 10 ^ Z.of_nat (length l) + number_of 0 l)%Z.
Proof.
  induction l as [|v l IH]; intros acc; cbn [number_of fold_left length].
  - simpl. lia.
  - unfold number_of in IH. rewrite IH. rewrite (IH (0 * 10 + v)%Z). rewrite Nat2Z.inj_succ, Z.pow_succ_r by lia. ring.
Qed.

Lemma number_zeros j acc : number_of acc (repeat 0%Z j) = (acc * 10 ^ Z.of_nat j)%Z.
Proof.
  revert acc. induction j as [|j IH]; intros acc; [simpl; lia|]. cbn [repeat number_of fold_left]. unfold number_of in IH. rewrite IH.
  rewrite Nat2Z.inj_succ, Z.pow_succ_r by lia. ring.
Qed.

Lemma read_map l : digits_ok l -> forall r acc c, read_digits (map digit l ++ r) acc c = read_digits r (number_of acc l) (c + Z.of_nat (length l)).
Proof.
  induction 1 as [|v l Hv Hl IH]; intros r acc c; cbn [map app length number_of fold_left].
  - now rewrite Z.add_0_r.
  - cbn [read_digits]. rewrite (digit_read _ Hv), IH. f_equal. lia.
Qed.

(** The last [w] digits of [n]. *)
Fixpoint low_digits (w : nat) (n : Z) : list Z :=
  match w with
  | O => []
  | S w => low_digits w (n / 10) ++ [n mod 10]%Z
  end.

Lemma low_digits_ok w : forall n, digits_ok (low_digits w n).
Proof.
  induction w as [|w IH]; intros n; cbn [low_digits]; [constructor|]. apply Forall_app. split; [apply IH|].
  constructor; [|constructor]. apply Z.mod_pos_bound. lia.
Qed.

Lemma low_digits_length w : forall n, length (low_digits w n) = w.
Proof. induction w as [|w IH]; intros n; cbn [low_digits]; [reflexivity|]. rewrite app_length, IH. simpl. lia. Qed.

Lemma low_digits_number w : forall n, number_of 0 (low_digits w n) = (n mod 10 ^ Z.of_nat w)%Z.
Proof.
  induction w as [|w IH]; intros n; cbn [low_digits]; [simpl; now rewrite Z.mod_1_r|].
  rewrite number_app, IH. cbn [number_of fold_left]. rewrite Nat2Z.inj_succ, Z.pow_succ_r by lia.
  pose proof (Z.pow_pos_nonneg 10 (Z.of_nat w) ltac:(lia) ltac:(lia)).
  rewrite (Z.rem_mul_r n 10 (10 ^ Z.of_nat w)) by lia. ring.
Qed.

Lemma fixed_digits w : forall n acc, fixed w n acc = map digit (low_digits w n) ++ acc.
Proof.
  induction w as [|w IH]; intros n acc; cbn [fixed low_digits]; [reflexivity|].
  rewrite IH, map_app, <- app_assoc. reflexivity.
Qed.

Lemma strip_digits l : digits_ok l -> exists l' j, strip (map digit l) = map digit l' /\ l = l' ++ repeat 0%Z j.
Proof.
  induction 1 as [|v l Hv Hl (l' & j & E1 & E2)].
  - exists [], 0%nat. auto.
  - cbn [map strip]. rewrite E1. destruct l' as [|a l'].
    + cbn [map]. destruct (Ascii.eqb (digit v) "0") eqn:E.
      * exists [], (S j). split; [reflexivity|]. cbn [app repeat] in *. f_equal; [|exact E2]. revert E. each_digit Hv; intros E; [reflexivity|discriminate..].
      * exists [v], j. split; [reflexivity|]. cbn [app] in *. now f_equal.
    + exists (v :: a :: l'), j. split; [reflexivity|]. cbn [app] in *. now f_equal.
Qed.

(** ** Reading the text *)

Definition decimal (p : Z * Z) : R := IZR (fst p) * 10^^ (snd p).

(** What may follow the digits of a number. *)
Definition stops (r : text) : Prop := forall a c, read_digits r a c = (a, c, r).

Lemma stops_nil : stops [].
Proof. intros a c. reflexivity. Qed.

Lemma stops_e r : stops ("e"%char :: r).
Proof. intros a c. reflexivity. Qed.

Lemma read_point i f r : digits_ok i -> digits_ok f -> (r = [] \/ exists r', r = "e"%char :: r') ->
  decimal (read_decimal (map digit i ++ fraction (strip (map digit f)) ++ r)) =
  IZR (number_of 0 (i ++ f)) * 10^^ (read_exponent r - Z.of_nat (length f)).
Proof.
  intros Hi Hf Hr. assert (Sr : stops r) by (destruct Hr as [->|[r' ->]]; [apply stops_nil|apply stops_e]).
  destruct (strip_digits f Hf) as (f' & j & E1 & E2). rewrite E1.
  assert (V : IZR (number_of 0 (i ++ f)) * 10^^ (read_exponent r - Z.of_nat (length f)) =
    IZR (number_of (number_of 0 i) f') * 10^^ (read_exponent r - Z.of_nat (length f'))).
  { rewrite E2, !number_app, number_zeros, mult_IZR, pow10_IZR by lia. rewrite Rmult_assoc, <- bpow_plus. f_equal. f_equal.
    rewrite app_length, repeat_length. lia. }
  rewrite V. unfold read_decimal. rewrite read_map by exact Hi. destruct f' as [|a f'].
  - cbn [map fraction app]. rewrite Sr. destruct Hr as [->|[r' ->]]; unfold decimal; cbn [fst snd number_of fold_left length]; reflexivity.
  - set (l := a :: f') in *. assert (El : fraction (map digit l) = "."%char :: map digit l) by reflexivity. rewrite El. clear El.
    cbn [app].
    assert (Pt : forall r a c, read_digits ("."%char :: r) a c = (a, c, "."%char :: r)) by reflexivity.
    rewrite Pt. rewrite read_map.
    + rewrite Sr. unfold decimal. cbn [fst snd]. f_equal.
    + rewrite E2 in Hf. apply Forall_app in Hf. apply Hf.
Qed.

Lemma numeral_read w n : (0 <= n)%Z -> exists l, numeral w n = map digit l /\ digits_ok l /\ number_of 0 l = n /\ l <> [].
Proof.
  intros Hn. unfold numeral. rewrite fixed_digits, app_nil_r. exists (low_digits (Nat.max w (width n)) n).
  split; [reflexivity|]. split; [apply low_digits_ok|]. split.
  - rewrite low_digits_number. apply Z.mod_small. split; [exact Hn|]. unfold width.
    destruct (Z.eqb_spec n 0) as [->|N0].
    + apply Z.pow_pos_nonneg; lia.
    + pose proof (exponent10_spec n 1 ltac:(lia) ltac:(lia)) as [_ B]. unfold Rdiv in B. rewrite Rinv_1, Rmult_1_r in B.
      set (e := exponent10 n 1) in *.
      assert (e0 : (0 < e + 1)%Z).
      { apply pow10_lt_inv. apply Rle_lt_trans with (2 := B). simpl. apply IZR_le. lia. }
      rewrite <- pow10_IZR in B by lia. apply lt_IZR in B. eapply Z.lt_le_trans; [exact B|]. apply Z.pow_le_mono_r; lia.
  - intros E. apply (f_equal (@length Z)) in E. rewrite low_digits_length in E. cbn [length] in E. unfold width in E.
    destruct (Z.eqb_spec n 0); [lia|]. pose proof (exponent10_spec n 1 ltac:(lia) ltac:(lia)) as [_ B]. unfold Rdiv in B. rewrite Rinv_1, Rmult_1_r in B.
    assert (e0 : (0 < exponent10 n 1 + 1)%Z).
    { apply pow10_lt_inv. apply Rle_lt_trans with (2 := B). simpl. apply IZR_le. lia. }
    lia.
Qed.

Lemma read_exponent_text k : read_exponent ("e"%char :: (if (k <? 0)%Z then "-"%char else "+"%char) :: numeral 2 (Z.abs k)) = k.
Proof.
  destruct (numeral_read 2 (Z.abs k) ltac:(lia)) as (l & -> & Hl & E & _).
  assert (R : fst (fst (read_digits (map digit l) 0 0)) = Z.abs k).
  { rewrite <- (app_nil_r (map digit l)), read_map by exact Hl. cbn [read_digits fst]. exact E. }
  destruct (Z.ltb_spec k 0); cbn [read_exponent]; rewrite R; lia.
Qed.

Lemma firstn_digits a l : map digit (firstn a l) = firstn a (map digit l).
Proof. now rewrite firstn_map. Qed.
Lemma skipn_digits a l : map digit (skipn a l) = skipn a (map digit l).
Proof. now rewrite skipn_map. Qed.
Lemma digits_firstn a l : digits_ok l -> digits_ok (firstn a l).
Proof. intros H. rewrite <- (firstn_skipn a l) in H. apply Forall_app in H. apply H. Qed.
Lemma digits_skipn a l : digits_ok l -> digits_ok (skipn a l).
Proof. intros H. rewrite <- (firstn_skipn a l) in H. apply Forall_app in H. apply H. Qed.

(** The text starts with a digit and continues with harmless characters. *)
Lemma general_read m k : (0 <= m < 10 ^ 6)%Z -> decimal (read_decimal (general_text m k)) = IZR m * 10^^ (k - 5).
Proof.
  intros Hm. unfold general_text. rewrite fixed_digits, app_nil_r. set (l := low_digits 6 m).
  assert (Hl : digits_ok l) by apply low_digits_ok. assert (Ll : length l = 6%nat) by apply low_digits_length.
  assert (Nl : number_of 0 l = m) by (unfold l; rewrite low_digits_number; apply Z.mod_small; exact Hm).
  destruct ((k <? -4)%Z || (6 <=? k)%Z) eqn:C.
  - rewrite <- firstn_digits, <- skipn_digits. rewrite read_point; [|now apply digits_firstn|now apply digits_skipn|right; eexists; reflexivity].
    rewrite read_exponent_text, firstn_skipn, Nl, skipn_length, Ll. reflexivity.
  - apply orb_false_iff in C. destruct C as [C1 C2]. apply Z.ltb_ge in C1. apply Z.leb_gt in C2. destruct (Z.leb_spec 0 k) as [K|K].
    + rewrite <- firstn_digits, <- skipn_digits. rewrite <- (app_nil_r (fraction _)).
      rewrite read_point; [|now apply digits_firstn|now apply digits_skipn|now left].
      rewrite firstn_skipn, Nl, skipn_length, Ll. f_equal. f_equal. cbn [read_exponent]. lia.
    + change ("0"%char :: fraction (strip (repeat "0"%char (Z.to_nat (- k - 1)) ++ map digit l)))
        with (map digit [0%Z] ++ fraction (strip (repeat (digit 0) (Z.to_nat (- k - 1)) ++ map digit l))).
      replace (repeat (digit 0) (Z.to_nat (- k - 1))) with (map digit (repeat 0%Z (Z.to_nat (- k - 1)))).
      2: { induction (Z.to_nat (- k - 1)) as [|j IH]; cbn [repeat map]; [reflexivity|now rewrite IH]. }
      rewrite <- map_app, <- (app_nil_r (fraction _)).
      rewrite read_point; [|repeat constructor; unfold is_digit; lia| |now left].
      * rewrite !number_app. cbn [number_of fold_left]. change (fold_left _ (repeat 0%Z ?j) ?a) with (number_of a (repeat 0%Z j)).
        rewrite number_zeros, Z.mul_0_l. change (fold_left _ l 0%Z) with (number_of 0 l). rewrite Nl, app_length, repeat_length, Ll.
        f_equal. f_equal. cbn [read_exponent]. lia.
      * apply Forall_app. split; [|exact Hl]. apply Forall_forall. intros v Hv. apply repeat_spec in Hv. subst v. unfold is_digit. lia.
Qed.

Lemma fixed_read N : (0 <= N)%Z -> decimal (read_decimal (fixed_text N)) = IZR N * 10^^ (-6).
Proof.
  intros HN. unfold fixed_text. rewrite fixed_digits, app_nil_r.
  pose proof (Z.div_mod N (10 ^ 6) ltac:(lia)) as E. pose proof (Z.mod_pos_bound N (10 ^ 6) ltac:(lia)) as B.
  assert (D : (0 <= N / 10 ^ 6)%Z) by (apply Z.div_pos; lia).
  destruct (numeral_read 1 (N / 10 ^ 6) D) as (i & -> & Hi & Ei & _).
  unfold read_decimal. rewrite read_map by exact Hi.
  assert (Pt : forall r a c, read_digits ("."%char :: r) a c = (a, c, "."%char :: r)) by reflexivity. rewrite Pt.
  rewrite <- (app_nil_r (map digit (low_digits 6 _))), read_map by apply low_digits_ok. cbn [read_digits]. unfold decimal. cbn [fst snd].
  rewrite number_shift, low_digits_number, low_digits_length, Ei. f_equal. f_equal. change (Z.of_nat 6) with 6%Z. rewrite Z.mod_mod by lia. lia.
Qed.

(** ** The double nearest to a decimal number *)

Local Notation rnd := (round radix2 (SpecFloat.fexp 53 1024) ZnearestE).

Definition with_sign (s : bool) (r : R) : R := if s then - r else r.

Lemma nearest_spec s m e : Rabs (rnd (IZR (Zpos m) * 10^^ e)) < bpow radix2 1024 ->
  is_finite_SF (nearest s m e) = true /\ SF2R radix2 (nearest s m e) = rnd (with_sign s (IZR (Zpos m) * 10^^ e)).
Proof.
  intros H. unfold nearest. set (n := if (0 <=? e)%Z then (m * Z.to_pos (10 ^ e))%positive else m).
  set (d := if (0 <=? e)%Z then xH else Z.to_pos (10 ^ (- e))).
  pose proof (Bdiv_correct_aux 53 1024 eq_refl eq_refl mode_NE s n 0 false d 0) as C. cbv zeta in C. rewrite xorb_false_r in C.
  destruct C as [_ C].
  assert (V : IZR (Zpos n) / IZR (Zpos d) = IZR (Zpos m) * 10^^ e).
  { unfold n, d. destruct (Z.leb_spec 0 e) as [He|He].
    - rewrite Pos2Z.inj_mul, Z2Pos.id by (apply Z.pow_pos_nonneg; lia). rewrite mult_IZR, pow10_IZR by lia. field.
    - rewrite Z2Pos.id by (apply Z.pow_pos_nonneg; lia). rewrite pow10_IZR by lia. unfold Rdiv. rewrite <- bpow_opp, Z.opp_involutive. reflexivity. }
  assert (W : F2R (Float radix2 (SpecFloat.cond_Zopp s (Zpos n)) 0) / F2R (Float radix2 (SpecFloat.cond_Zopp false (Zpos d)) 0) = with_sign s (IZR (Zpos m) * 10^^ e)).
  { unfold F2R. cbn [Fnum Fexp SpecFloat.cond_Zopp]. simpl (bpow radix2 0). rewrite !Rmult_1_r. rewrite <- V.
    destruct s; cbn [with_sign SpecFloat.cond_Zopp]; [|reflexivity]. rewrite opp_IZR. unfold Rdiv. ring. }
  rewrite W in C. cbn [round_mode] in C.
  rewrite Rlt_bool_true in C.
  - destruct C as (C1 & C2 & _). split; [exact C2|exact C1].
  - destruct s; cbn [with_sign]; [rewrite round_NE_opp, Rabs_Ropp|]; exact H.
Qed.

Definition digit_first (t : text) : Prop := exists v r, is_digit v /\ t = digit v :: r.

Lemma atof_signed s t : digit_first t -> atof (signed s t) = match fst (read_decimal t) with
  | Zpos m => SF2B _ (nearest_valid s m (snd (read_decimal t))) | _ => B754_zero s end.
Proof.
  intros (v & r & Hv & ->). destruct s; cbn [signed]; each_digit Hv; reflexivity.
Qed.

Lemma atof_value s t v : digit_first t -> decimal (read_decimal t) = v -> 0 < v -> Rabs (rnd v) < bpow radix2 1024 ->
  is_finite (atof (signed s t)) = true /\ B2R (atof (signed s t)) = rnd (with_sign s v).
Proof.
  intros Ht <- Hv Hb. rewrite atof_signed by exact Ht. destruct (read_decimal t) as [m e]. unfold decimal in *. cbn [fst snd] in *.
  assert (Hm : (0 < m)%Z).
  { apply lt_IZR. apply Rmult_lt_reg_r with (10^^ e); [apply pow10_pos|]. lra. }
  destruct m as [|m|m]; try lia. destruct (nearest_spec s m e Hb) as [A B]. rewrite is_finite_SF2B, B2R_SF2B. auto.
Qed.

Lemma atof_zero s t : digit_first t -> decimal (read_decimal t) = 0 -> atof (signed s t) = B754_zero s.
Proof.
  intros Ht H. rewrite atof_signed by exact Ht. destruct (read_decimal t) as [m e]. unfold decimal in *. cbn [fst snd] in *.
  apply Rmult_integral in H. destruct H as [H|H]; [|pose proof (pow10_pos e); lra]. apply (eq_IZR m 0) in H. now subst m.
Qed.

Lemma fraction_of_spec m e n d : fraction_of m e = (n, d) -> (0 < n)%Z /\ (0 < d)%Z /\ IZR n / IZR d = F2R (Float radix2 (Zpos m) e).
Proof.
  unfold fraction_of, F2R. cbn [Fnum Fexp]. destruct (Z.leb_spec 0 e) as [He|He]; intros E.
  - assert (En : n = (Zpos m * 2 ^ e)%Z) by congruence. assert (Ed : d = 1%Z) by congruence. clear E. subst n d. pose proof (Z.pow_pos_nonneg 2 e ltac:(lia) He) as P. split; [lia|]. split; [lia|]. rewrite mult_IZR.
    assert (X : IZR (2 ^ e) = bpow radix2 e) by (exact (IZR_Zpower radix2 e He)). rewrite X. field.
  - assert (En : n = Zpos m) by congruence. assert (Ed : d = (2 ^ (- e))%Z) by congruence. clear E. subst n d. pose proof (Z.pow_pos_nonneg 2 (- e) ltac:(lia) ltac:(lia)) as P. split; [lia|]. split; [lia|].
    assert (X : IZR (2 ^ (- e)) = bpow radix2 (- e)) by (exact (IZR_Zpower radix2 (- e) ltac:(lia))). rewrite X, bpow_opp.
    unfold Rdiv. now rewrite Rinv_inv.
Qed.

Lemma digit_first_map l r : digits_ok l -> l <> [] -> digit_first (map digit l ++ r).
Proof. intros Hl Hn. destruct l as [|v l]; [congruence|]. inversion Hl; subst. exists v, (map digit l ++ r). auto. Qed.

Lemma general_first m k : digit_first (general_text m k).
Proof.
  unfold general_text. rewrite fixed_digits, app_nil_r. pose proof (low_digits_ok 6 m) as Hl. pose proof (low_digits_length 6 m) as Ll.
  set (l := low_digits 6 m) in *.
  assert (Ne : forall a, (0 < a)%nat -> firstn a l <> []).
  { intros a Ha E. apply (f_equal (@length Z)) in E. rewrite firstn_length, Ll in E. simpl in E. lia. }
  destruct ((k <? -4)%Z || (6 <=? k)%Z); [|destruct (Z.leb_spec 0 k)].
  - rewrite <- firstn_digits. apply digit_first_map; [now apply digits_firstn|apply Ne; lia].
  - rewrite <- firstn_digits. apply digit_first_map; [now apply digits_firstn|apply Ne; lia].
  - exists 0%Z. eexists. split; [unfold is_digit; lia|]. reflexivity.
Qed.

Lemma fixed_first N : (0 <= N)%Z -> digit_first (fixed_text N).
Proof.
  intros HN. unfold fixed_text. destruct (numeral_read 1 (N / 10 ^ 6) ltac:(apply Z.div_pos; lia)) as (l & -> & Hl & _ & Hn).
  now apply digit_first_map.
Qed.

(** ** The characters used *)

Definition number_chars : text := ["0"; "1"; "2"; "3"; "4"; "5"; "6"; "7"; "8"; "9"; "."; "-"; "+"; "e"; "i"; "n"; "f"; "a"]%char.

Definition harmless (t : text) : Prop := Forall (fun a => In a number_chars) t.

Lemma digit_harmless v : is_digit v -> In (digit v) number_chars.
Proof. intros H. each_digit H; cbn; tauto. Qed.

Lemma digits_harmless l : digits_ok l -> harmless (map digit l).
Proof. induction 1; constructor; auto. now apply digit_harmless. Qed.

Lemma fixed_harmless w n : harmless (fixed w n []).
Proof. rewrite fixed_digits, app_nil_r. apply digits_harmless, low_digits_ok. Qed.

Lemma harmless_app a b : harmless a -> harmless b -> harmless (a ++ b).
Proof. intros A B. apply Forall_app. auto. Qed.

Lemma harmless_firstn k a : harmless a -> harmless (firstn k a).
Proof. intros H. unfold harmless in H. rewrite <- (firstn_skipn k a) in H. apply Forall_app in H. apply H. Qed.
Lemma harmless_skipn k a : harmless a -> harmless (skipn k a).
Proof. intros H. unfold harmless in H. rewrite <- (firstn_skipn k a) in H. apply Forall_app in H. apply H. Qed.

Lemma strip_harmless a : harmless a -> harmless (strip a).
Proof.
  induction 1 as [|x a Hx Ha IH]; [constructor|]. cbn [strip]. destruct (strip a); [|constructor; auto].
  destruct (Ascii.eqb x "0"); [constructor|]. now constructor.
Qed.

Lemma fraction_harmless a : harmless a -> harmless (fraction a).
Proof. destruct a; intros H; [constructor|]. constructor; [cbn; tauto|exact H]. Qed.

Lemma signed_harmless s t : harmless t -> harmless (signed s t).
Proof. destruct s; auto. intros H. constructor; [cbn; tauto|exact H]. Qed.

Lemma general_harmless m k : harmless (general_text m k).
Proof.
  unfold general_text. pose proof (fixed_harmless 6 m) as H. set (ds := fixed 6 m []) in *.
  destruct ((k <? -4)%Z || (6 <=? k)%Z); [|destruct (0 <=? k)%Z].
  - apply harmless_app; [now apply harmless_firstn|]. apply harmless_app; [now apply fraction_harmless, strip_harmless, harmless_skipn|].
    constructor; [cbn; tauto|]. constructor; [destruct (k <? 0)%Z; cbn; tauto|]. apply fixed_harmless.
  - apply harmless_app; [now apply harmless_firstn|]. now apply fraction_harmless, strip_harmless, harmless_skipn.
  - constructor; [cbn; tauto|]. apply fraction_harmless, strip_harmless, harmless_app; [|exact H].
    apply Forall_forall. intros a Ha. apply repeat_spec in Ha. subst a. cbn. tauto.
Qed.

Lemma fixed_text_harmless N : harmless (fixed_text N).
Proof. apply harmless_app; [apply fixed_harmless|]. constructor; [cbn; tauto|]. apply fixed_harmless. Qed.

Lemma to_string6_harmless x : harmless (to_string6 x) /\ to_string6 x <> [].
Proof.
  assert (Si : forall s t, t <> [] -> signed s t <> []) by (intros [] t H; [discriminate|exact H]).
  assert (Ze : harmless ["0"%char]) by (repeat constructor; cbn; tauto).
  assert (Hi : harmless inf_text) by (repeat constructor; cbn; tauto).
  assert (Hn : harmless nan_text) by (repeat constructor; cbn; tauto).
  destruct x as [s|s| |s m e B]; cbn [to_string6].
  - split; [now apply signed_harmless|now apply Si].
  - split; [now apply signed_harmless|now apply Si].
  - split; [exact Hn|discriminate].
  - destruct (fraction_of m e) as [n d], (six_digits n d) as [dg k]. split; [apply signed_harmless, general_harmless|].
    apply Si. destruct (general_first dg k) as (v & r & _ & ->). discriminate.
Qed.

Lemma show_lf_harmless x : harmless (show_lf x) /\ show_lf x <> [].
Proof.
  assert (Si : forall s t, t <> [] -> signed s t <> []) by (intros [] t H; [discriminate|exact H]).
  assert (Ft : forall N, fixed_text N <> []) by (intros N; unfold fixed_text; destruct (numeral 1 (N / 10 ^ 6)); discriminate).
  assert (Hi : harmless inf_text) by (repeat constructor; cbn; tauto).
  assert (Hn : harmless nan_text) by (repeat constructor; cbn; tauto).
  destruct x as [s|s| |s m e B]; cbn [show_lf].
  - split; [apply signed_harmless, fixed_text_harmless|apply Si, Ft].
  - split; [now apply signed_harmless|now apply Si].
  - split; [exact Hn|discriminate].
  - destruct (fraction_of m e) as [n d]. split; [apply signed_harmless, fixed_text_harmless|apply Si, Ft].
Qed.
