(** * C112: fitting samples of a smooth motion *)

From Coquelicot Require Import Coquelicot.
From Coq Require Import List Bool Arith NArith ZArith Reals Lra Lia Psatz.
From Verif Require Import Base TimeOrder TimeInst KeyGen Manager ManagerSpec ManagerProofs ManagerProofs3 Num Sampling HermiteE3 HermiteSpec HermiteE3Proofs
  Props_HermiteE3 Props_Hermite2 Quat QuatSpec QuatProofs QuatLog QuatDist HermiteSE3 HermiteSE3Spec HermiteSE3Proofs HermiteSE3Curve HermiteSE3Motion
  Props_HermiteSE3 Props_HalfTurn Props_Speed.
Import ListNotations.
Local Open Scope R_scope.

(** ** Specification *)

(** [v] is the derivative of [f] between [lo] and [hi]. *)
Definition moves (f v : R -> vec3 R) (lo hi : R) : Prop :=
  forall a t, lo <= t <= hi -> is_derive (fun s => coord a (f s)) t (coord a (v t)).
(** [v] changes by at most [A] per second. *)
Definition changes (A : R) (v : R -> vec3 R) (lo hi : R) : Prop :=
  forall s t, lo <= s <= hi -> lo <= t <= hi -> vnorm (HermiteE3.vsub (v s) (v t)) <= A * Rabs (s - t).
(** Neighbouring times are at most [h] apart; exactly [h] apart. *)
Definition gaps (h : R) (ts : list R) : Prop := forall i, (S i < length ts)%nat -> at_knot ts (S i) - at_knot ts i <= h.
Definition regular (h : R) (ts : list R) : Prop := forall i, (S i < length ts)%nat -> at_knot ts (S i) - at_knot ts i = h.

(** ** Taylor remainders *)

Lemma bounded_after (r r' : R -> R) t s C n : t <= s -> r t = 0 -> (forall x, t <= x <= s -> is_derive r x (r' x)) ->
  (forall x, t <= x <= s -> r' x <= C * (x - t) ^ n) -> r s <= C * (s - t) ^ S n / INR (S n).
Proof.
  intros L Z D B. destruct (Req_dec t s) as [E|N].
  { subst s. rewrite Z. replace (t - t) with 0 by ring. rewrite pow_i by lia. unfold Rdiv. rewrite Rmult_0_r, Rmult_0_l. lra. }
  assert (Pn : 0 < INR (S n)) by (apply lt_0_INR; lia).
  destruct (MVT_cor2 (fun x => r x - C * (x - t) ^ S n / INR (S n)) (fun x => r' x - C * (x - t) ^ n) t s ltac:(lra)) as (z & Ez & Bz).
  - intros x Hx. apply is_derive_Reals. pose proof (D x Hx) as Dx. auto_derive; [eexists; exact Dx|].
    change (fun x => r x) with r. rewrite (is_derive_unique _ _ _ Dx). change (match n with O => 1 | S _ => INR n + 1 end) with (INR (S n)).
    replace (x + - t) with (x - t) by ring. cbn [Nat.pred]. revert Pn. generalize (INR (S n)), ((x - t) ^ n). intros m y Pn. field. lra.
  - rewrite Z in Ez. replace (t - t) with 0 in Ez by ring. rewrite (pow_i (S n)) in Ez by lia.
    pose proof (B z ltac:(lra)) as Q.
    assert (Y : (r' z - C * (z - t) ^ n) * (s - t) <= 0) by (apply Rmult_le_0_r; lra).
    unfold Rdiv in *. rewrite Rmult_0_r, Rmult_0_l in Ez. lra.
Qed.

Lemma bounded_from (r r' : R -> R) t s C n : (forall x, Rmin t s <= x <= Rmax t s -> is_derive r x (r' x)) -> r t = 0 ->
  (forall x, Rmin t s <= x <= Rmax t s -> Rabs (r' x) <= C * Rabs (x - t) ^ n) -> Rabs (r s) <= C * Rabs (s - t) ^ S n / INR (S n).
Proof.
  assert (H : forall (r r' : R -> R) t s, t <= s -> (forall x, t <= x <= s -> is_derive r x (r' x)) -> r t = 0 ->
    (forall x, t <= x <= s -> Rabs (r' x) <= C * Rabs (x - t) ^ n) -> Rabs (r s) <= C * Rabs (s - t) ^ S n / INR (S n)).
  { clear. intros r r' t s L D Z B. rewrite (Rabs_pos_eq (s - t)) by lra.
    assert (B' : forall x, t <= x <= s -> Rabs (r' x) <= C * (x - t) ^ n).
    { intros x Hx. pose proof (B x Hx) as Q. now rewrite (Rabs_pos_eq (x - t)) in Q by lra. }
    apply Rabs_le. split.
    - assert (- r s <= C * (s - t) ^ S n / INR (S n)); [|lra].
      apply (bounded_after (fun x => - r x) (fun x => - r' x)); auto; [lra| |].
      + intros x Hx. apply (is_derive_opp r x (r' x)). auto.
      + intros x Hx. eapply Rle_trans; [|now apply B']. rewrite <- Rabs_Ropp. apply Rle_abs.
    - apply (bounded_after r r'); auto. intros x Hx. eapply Rle_trans; [apply Rle_abs|auto]. }
  intros D Z B. destruct (Rle_lt_dec t s) as [L|L].
  - rewrite Rmin_left, Rmax_right in * by lra. now apply (H r r').
  - rewrite Rmin_right, Rmax_left in * by lra.
    pose proof (H (fun x => r (2 * t - x)) (fun x => - r' (2 * t - x)) t (2 * t - s) ltac:(lra)) as Q. cbn beta in Q.
    replace (2 * t - (2 * t - s)) with s in Q by ring. replace (2 * t - t) with t in Q by ring.
    replace (2 * t - s - t) with (- (s - t)) in Q by ring. rewrite Rabs_Ropp in Q. apply Q; auto.
    + intros x Hx. pose proof (D (2 * t - x) ltac:(lra)) as Dx. auto_derive; [eexists; exact Dx|].
      change (fun x => r x) with r. replace (2 * t + - x) with (2 * t - x) by ring. rewrite (is_derive_unique _ _ _ Dx). ring.
    + intros x Hx. rewrite Rabs_Ropp. replace (x - t) with (- (2 * t - x - t)) by ring. rewrite Rabs_Ropp. apply B. lra.
Qed.

(** ** Segments *)

Section Segment.
Variables (ta tb p0 v0 p1 v1 t c0 c1 c2 E0 E1 W0 W1 : R).
Hypothesis L : ta < tb.
Hypothesis Ht : ta <= t <= tb.
Hypothesis He0 : Rabs (p0 - (c0 + c1 * (ta - t) + c2 * ((ta - t) * (ta - t)))) <= E0.
Hypothesis He1 : Rabs (p1 - (c0 + c1 * (tb - t) + c2 * ((tb - t) * (tb - t)))) <= E1.
Hypothesis Hw0 : Rabs (v0 - (c1 + 2 * c2 * (ta - t))) <= W0.
Hypothesis Hw1 : Rabs (v1 - (c1 + 2 * c2 * (tb - t))) <= W1.

Let d := tb - ta.
Let x := (t - ta) / d.

Lemma four_terms a b c e A B C E : Rabs a <= A -> Rabs b <= B -> Rabs c <= C -> Rabs e <= E -> Rabs (a + b + c + e) <= A + B + C + E.
Proof.
  intros. eapply Rle_trans; [apply Rabs_triang|]. apply Rplus_le_compat; [|assumption]. eapply Rle_trans; [apply Rabs_triang|].
  apply Rplus_le_compat; [|assumption]. eapply Rle_trans; [apply Rabs_triang|]. now apply Rplus_le_compat.
Qed.

Lemma weighted w W y : 0 <= w -> Rabs y <= W -> Rabs (w * y) <= w * W.
Proof. intros P Q. rewrite Rabs_mult, Rabs_pos_eq by exact P. now apply Rmult_le_compat_l. Qed.

Lemma weighted' w W y : Rabs y <= W -> Rabs (w * y) <= Rabs w * W.
Proof. intros Q. rewrite Rabs_mult. apply Rmult_le_compat_l; [apply Rabs_pos|exact Q]. Qed.

Lemma value_error : Rabs (hval ta tb p0 v0 p1 v1 t - c0) <=
  (1 - x) * (1 - x) * (1 + 2 * x) * E0 + x * x * (3 - 2 * x) * E1 + d * (x * ((1 - x) * (1 - x))) * W0 + d * (x * x * (1 - x)) * W1.
Proof.
  pose proof (fraction_bounds ta tb t L Ht) as X. fold d in X. change ((t - ta) / d) with x in X.
  set (e0 := p0 - _) in He0. set (e1 := p1 - _) in He1. set (u0 := v0 - _) in Hw0. set (u1 := v1 - _) in Hw1.
  assert (P : 0 < d) by (unfold d; lra).
  replace (hval ta tb p0 v0 p1 v1 t - c0) with
    ((1 - x) * (1 - x) * (1 + 2 * x) * e0 + x * x * (3 - 2 * x) * e1 + d * (x * ((1 - x) * (1 - x))) * u0 + - (d * (x * x * (1 - x)) * u1)).
  - assert (Q0 : 0 <= (1 - x) * (1 - x)) by nra. assert (Q1 : 0 <= x * x) by nra.
    apply four_terms; [| | |rewrite Rabs_Ropp]; apply weighted; auto.
    + apply Rmult_le_pos; [exact Q0|lra].
    + apply Rmult_le_pos; [exact Q1|lra].
    + apply Rmult_le_pos; [lra|]. apply Rmult_le_pos; lra.
    + apply Rmult_le_pos; [lra|]. apply Rmult_le_pos; lra.
  - unfold hval, e0, e1, u0, u1. fold d. change ((t - ta) / d) with x.
    replace (ta - t) with (- (x * d)) by (unfold x; field; lra). replace (tb - t) with ((1 - x) * d) by (unfold x, d; field; unfold d in P; lra). ring.
Qed.

Lemma velocity_error : Rabs (hvel ta tb p0 v0 p1 v1 t - c1) <=
  6 * x * (1 - x) / d * E0 + 6 * x * (1 - x) / d * E1 + Rabs ((1 - x) * (1 - 3 * x)) * W0 + Rabs (x * (2 - 3 * x)) * W1.
Proof.
  pose proof (fraction_bounds ta tb t L Ht) as X. fold d in X. change ((t - ta) / d) with x in X.
  set (e0 := p0 - _) in He0. set (e1 := p1 - _) in He1. set (u0 := v0 - _) in Hw0. set (u1 := v1 - _) in Hw1.
  assert (P : 0 < d) by (unfold d; lra).
  replace (hvel ta tb p0 v0 p1 v1 t - c1) with
    (- (6 * x * (1 - x) / d * e0) + 6 * x * (1 - x) / d * e1 + (1 - x) * (1 - 3 * x) * u0 + - (x * (2 - 3 * x) * u1)).
  - assert (Q0 : 0 <= 6 * x * (1 - x) / d) by (apply Rmult_le_pos; [nra|]; left; now apply Rinv_0_lt_compat).
    apply four_terms; [rewrite Rabs_Ropp| | |rewrite Rabs_Ropp]; try (apply weighted; assumption); apply weighted'; assumption.
  - unfold hvel, e0, e1, u0, u1. fold d. change ((t - ta) / d) with x.
    replace (ta - t) with (- (x * d)) by (unfold x; field; lra). replace (tb - t) with ((1 - x) * d) by (unfold x, d; field; unfold d in P; lra). field. lra.
Qed.
End Segment.

(** ** Polynomials *)

Lemma slope_poly y d a h : 0 <= y <= 1 -> 0 < d <= h -> 0 <= a <= h ->
  (a + y * d) * (a + y * d) + (1 - y) * d * ((1 - y) * d) <= h * (1 + y * y) * (a + d).
Proof.
  intros Y D A. assert (P1 : 0 <= a * (h - a)) by (apply Rmult_le_pos; lra).
  assert (K0 : 0 <= 1 - 2 * y + 2 * (y * y)) by nra.
  assert (P2 : 0 <= (1 - 2 * y + 2 * (y * y)) * (d * (h - d))) by (apply Rmult_le_pos; [exact K0|apply Rmult_le_pos; lra]).
  assert (P3 : 0 <= a * (y * y) * h * (h - d)) by (repeat apply Rmult_le_pos; lra).
  assert (P4 : 0 <= (h - a) * (h * d) * (y * (2 - y))) by (repeat apply Rmult_le_pos; lra).
  assert (h * (2 * y * d * (a - h) + y * y * d * h - h * (y * y) * a) <= 0) as Q by lra.
  assert (2 * y * d * (a - h) + y * y * d * h - h * (y * y) * a <= 0) by (apply Rnot_lt_le; intros Z; pose proof (Rmult_lt_0_compat h _ ltac:(lra) Z); lra).
  lra.
Qed.

Lemma quarter x : 0 <= x <= 1 -> 0 <= x * (1 - x) <= / 4.
Proof. intros X. pose proof (Rle_0_sqr (1 - 2 * x)) as Q. unfold Rsqr in Q. split; [apply Rmult_le_pos; lra|lra]. Qed.

Lemma position_poly x : 0 <= x <= 1 ->
  (1 - x) * (1 - x) * (1 + 2 * x) * (x * x / 2) + x * x * (3 - 2 * x) * ((1 - x) * (1 - x) / 2) + x * ((1 - x) * (1 - x)) * ((1 + x * x) / 2) +
    x * x * (1 - x) * ((1 + (1 - x) * (1 - x)) / 2) <= 9 / 32.
Proof.
  intros X. set (u := x * (1 - x)). pose proof (quarter x X) as HU. fold u in HU.
  replace (_ + _) with (2 * (u * u) + u * (1 + u) / 2) by (unfold u; field). nra.
Qed.

Lemma velocity_poly x : 0 <= x <= 1 ->
  6 * x * (1 - x) * (x * x / 2) + 6 * x * (1 - x) * ((1 - x) * (1 - x) / 2) + Rabs ((1 - x) * (1 - 3 * x)) * ((1 + x * x) / 2) +
    Rabs (x * (2 - 3 * x)) * ((1 + (1 - x) * (1 - x)) / 2) <= 3 / 4.
Proof.
  intros X. assert (S : forall y, 0 <= y <= / 3 -> 1 / 2 + 3 * y - 12 * (y * y) + 14 * (y * y * y) - 6 * (y * y * y * y) <= 3 / 4).
  { intros y Y. 
    pose proof (Rle_0_sqr (y * y - 3 / 100)) as Q1. pose proof (Rle_0_sqr (y - 17 / 100)) as Q2. unfold Rsqr in *.
    assert (0 <= (76 / 10 - 14 * y) * ((y - 17 / 100) * (y - 17 / 100))) by (apply Rmult_le_pos; lra). lra. }
  destruct (Rle_lt_dec x (/ 3)) as [A|A].
  { rewrite !Rabs_pos_eq by nra. pose proof (S x ltac:(lra)). lra. }
  destruct (Rle_lt_dec (2 / 3) x) as [B|B].
  { rewrite !Rabs_left1 by nra. pose proof (S (1 - x) ltac:(lra)). lra. }
  rewrite (Rabs_left1 ((1 - x) * (1 - 3 * x))), (Rabs_pos_eq (x * (2 - 3 * x))) by nra.
  set (u := x * (1 - x)). pose proof (quarter x X) as HU. fold u in HU.
  assert (0 <= (u - / 4) * (u - / 4)) by nra. assert (u * u = x * x - 2 * (x * x * x) + x * x * x * x) by (unfold u; ring). unfold u in *. nra.
Qed.

Lemma position_poly3 x : 0 <= x <= 1 ->
  (1 - x) * (1 - x) * (1 + 2 * x) * (x * x * x / 6) + x * x * (3 - 2 * x) * ((1 - x) * (1 - x) * (1 - x) / 6) +
    x * ((1 - x) * (1 - x)) * ((1 + 3 * (x * x)) / 6) + x * x * (1 - x) * ((1 + 3 * ((1 - x) * (1 - x))) / 6) <= 3 / 32.
Proof.
  intros X. set (u := x * (1 - x)). pose proof (quarter x X) as HU. fold u in HU.
  replace (_ + _) with (u / 6 * (1 + 6 * u - 4 * (u * u))) by (unfold u; field).
  assert (0 <= u * (/ 4 - u)) by (apply Rmult_le_pos; lra).
  assert (0 <= (/ 4 - u) * (9 / 4 + 5 * u - 4 * (u * u))) by (apply Rmult_le_pos; lra). lra.
Qed.

Lemma velocity_poly3 x : 0 <= x <= 1 ->
  6 * x * (1 - x) * (x * x * x / 6) + 6 * x * (1 - x) * ((1 - x) * (1 - x) * (1 - x) / 6) + Rabs ((1 - x) * (1 - 3 * x)) * ((1 + 3 * (x * x)) / 6) +
    Rabs (x * (2 - 3 * x)) * ((1 + 3 * ((1 - x) * (1 - x))) / 6) <= 3 / 10.
Proof.
  intros X. assert (S : forall y, 0 <= y <= / 3 -> 1 / 6 + 5 / 3 * y - 7 * (y * y) + 8 * (y * y * y) - 3 * (y * y * y * y) <= 3 / 10).
  { intros y Y. 
    pose proof (Rle_0_sqr (y * y - 256 / 10000)) as Q1. pose proof (Rle_0_sqr (y - 16 / 100)) as Q2. unfold Rsqr in *.
    assert (0 <= (45936 / 10000 - 8 * y) * ((y - 16 / 100) * (y - 16 / 100))) by (apply Rmult_le_pos; lra). lra. }
  destruct (Rle_lt_dec x (/ 3)) as [A|A].
  { rewrite !Rabs_pos_eq by nra. pose proof (S x ltac:(lra)). lra. }
  destruct (Rle_lt_dec (2 / 3) x) as [B|B].
  { rewrite !Rabs_left1 by nra. pose proof (S (1 - x) ltac:(lra)). lra. }
  rewrite (Rabs_left1 ((1 - x) * (1 - 3 * x))), (Rabs_pos_eq (x * (2 - 3 * x))) by nra.
  set (u := x * (1 - x)). pose proof (quarter x X) as HU. fold u in HU.
  assert (0 <= (/ 4 - u) * (/ 4 - u)) by (apply Rle_0_sqr). unfold u in *. lra.
Qed.

(** ** Functions *)

Section Scalar.
Variables (F G : R -> R) (lo hi : R).
Hypothesis HF : forall t, lo <= t <= hi -> is_derive F t (G t).

Lemma taylor1 A s t : (forall s t, lo <= s <= hi -> lo <= t <= hi -> Rabs (G s - G t) <= A * Rabs (s - t)) -> lo <= s <= hi -> lo <= t <= hi ->
  Rabs (F s - (F t + G t * (s - t) + 0 * ((s - t) * (s - t)))) <= A * ((s - t) * (s - t) / 2).
Proof.
  intros HG Hs Ht.
  assert (M : forall z, Rmin t s <= z <= Rmax t s -> lo <= z <= hi).
  { intros z [Z1 Z2]. split; [eapply Rle_trans; [|exact Z1]; apply Rmin_glb; lra|eapply Rle_trans; [exact Z2|]; apply Rmax_lub; lra]. }
  pose proof (bounded_from (fun z => F z - (F t + G t * (z - t) + 0 * ((z - t) * (z - t)))) (fun z => G z - G t) t s A 1) as B. cbn beta in B.
  replace (A * ((s - t) * (s - t) / 2)) with (A * Rabs (s - t) ^ 2 / INR 2).
  - apply B; clear B.
    + intros z Hz. pose proof (HF z (M z Hz)) as Dz. auto_derive; [eexists; exact Dz|]. change (fun x => F x) with F. rewrite (is_derive_unique _ _ _ Dz). ring.
    + ring.
    + intros z Hz. rewrite pow_1. apply HG; [now apply M|lra].
  - rewrite RPow_abs, Rabs_pos_eq by apply pow2_ge_0. cbn. field.
Qed.

Variable H : R -> R.
Hypothesis HGd : forall t, lo <= t <= hi -> is_derive G t (H t).

Lemma taylor2 J s t : (forall s t, lo <= s <= hi -> lo <= t <= hi -> Rabs (H s - H t) <= J * Rabs (s - t)) -> lo <= s <= hi -> lo <= t <= hi ->
  Rabs (F s - (F t + G t * (s - t) + H t / 2 * ((s - t) * (s - t)))) <= J * (Rabs (s - t) * Rabs (s - t) * Rabs (s - t) / 6) /\
  Rabs (G s - (G t + 2 * (H t / 2) * (s - t))) <= J * ((s - t) * (s - t) / 2).
Proof.
  intros HH Hs Ht.
  assert (M : forall z, Rmin t s <= z <= Rmax t s -> lo <= z <= hi).
  { intros z [Z1 Z2]. split; [eapply Rle_trans; [|exact Z1]; apply Rmin_glb; lra|eapply Rle_trans; [exact Z2|]; apply Rmax_lub; lra]. }
  assert (B1 : forall z, lo <= z <= hi -> Rabs (G z - (G t + 2 * (H t / 2) * (z - t))) <= J * ((z - t) * (z - t) / 2)).
  { intros z Hz.
    assert (Mz : forall y, Rmin t z <= y <= Rmax t z -> lo <= y <= hi).
    { intros y [Z1 Z2]. split; [eapply Rle_trans; [|exact Z1]; apply Rmin_glb; lra|eapply Rle_trans; [exact Z2|]; apply Rmax_lub; lra]. }
    pose proof (bounded_from (fun y => G y - (G t + 2 * (H t / 2) * (y - t))) (fun y => H y - H t) t z J 1) as B. cbn beta in B.
    replace (J * ((z - t) * (z - t) / 2)) with (J * Rabs (z - t) ^ 2 / INR 2).
    - apply B; clear B.
      + intros y Hy. pose proof (HGd y (Mz y Hy)) as Dz. auto_derive; [eexists; exact Dz|]. change (fun x => G x) with G. rewrite (is_derive_unique _ _ _ Dz). field.
      + ring.
      + intros y Hy. rewrite pow_1. apply HH; [now apply Mz|lra].
    - rewrite RPow_abs, Rabs_pos_eq by apply pow2_ge_0. cbn. field. }
  split; [|now apply B1].
  pose proof (bounded_from (fun z => F z - (F t + G t * (z - t) + H t / 2 * ((z - t) * (z - t)))) (fun z => G z - (G t + 2 * (H t / 2) * (z - t))) t s (J / 2) 2) as B.
  cbn beta in B. replace (J * (Rabs (s - t) * Rabs (s - t) * Rabs (s - t) / 6)) with (J / 2 * Rabs (s - t) ^ 3 / INR 3) by (cbn; field).
  apply B; clear B.
  + intros z Hz. pose proof (HF z (M z Hz)) as Dz. auto_derive; [eexists; exact Dz|]. change (fun x => F x) with F. rewrite (is_derive_unique _ _ _ Dz). field.
  + ring.
  + intros z Hz. eapply Rle_trans; [apply B1; now apply M|]. rewrite RPow_abs, Rabs_pos_eq by apply pow2_ge_0. right. cbn. field.
Qed.
End Scalar.

(** ** Directions *)

(** Not in the source: the component of [v] along [u]. *)
Definition along (u v : vec3 R) : R := HermiteE3.vx u * HermiteE3.vx v + vy u * vy v + vz u * vz v.

Lemma vnorm_sqr v : vnorm v * vnorm v = along v v.
Proof.
  unfold vnorm, along. apply sqrt_sqrt. pose proof (Rle_0_sqr (HermiteE3.vx v)). pose proof (Rle_0_sqr (vy v)). pose proof (Rle_0_sqr (vz v)). unfold Rsqr in *. lra.
Qed.

Lemma along_le u v : vnorm u = 1 -> Rabs (along u v) <= vnorm v.
Proof.
  intros U. apply le_by_squares; [apply vnorm_pos|].
  rewrite vnorm_sqr, <- Rabs_mult, Rabs_pos_eq by apply Rle_0_sqr.
  pose proof (cauchy4 (HermiteE3.vx u) (vy u) (vz u) 0 (HermiteE3.vx v) (vy v) (vz v) 0) as C.
  pose proof (vnorm_sqr u) as Q. rewrite U in Q. unfold along in *. nra.
Qed.

Lemma along_norm e B : 0 <= B -> (forall u, vnorm u = 1 -> along u e <= B) -> vnorm e <= B.
Proof.
  intros P H. destruct (Req_dec (vnorm e) 0) as [Z|Z]; [lra|]. pose proof (vnorm_pos e) as Pe.
  pose proof (H (vscale (/ vnorm e) e)) as Q. rewrite vnorm_scale, Rabs_pos_eq in Q by (left; apply Rinv_0_lt_compat; lra).
  specialize (Q ltac:(field; exact Z)).
  replace (along (vscale (/ vnorm e) e) e) with (/ vnorm e * along e e) in Q by (unfold along, vscale; cbn; numR; ring).
  rewrite <- vnorm_sqr in Q. replace (/ vnorm e * (vnorm e * vnorm e)) with (vnorm e) in Q by (field; exact Z). exact Q.
Qed.

Lemma along_sub u a b : along u (HermiteE3.vsub a b) = along u a - along u b.
Proof. unfold along. destruct a, b. cbn. numR. ring. Qed.
Lemma along_scale u s a : along u (vscale s a) = s * along u a.
Proof. unfold along. destruct a. cbn. numR. ring. Qed.
Lemma along_coord u a : along u a = HermiteE3.vx u * coord AX a + vy u * coord AY a + vz u * coord AZ a.
Proof. reflexivity. Qed.

Lemma along_value u ta tb (ka kb : knot R) t :
  along u (e3_segment_value ta tb ka kb t) = hval ta tb (along u (k_pos ka)) (along u (k_vel ka)) (along u (k_pos kb)) (along u (k_vel kb)) t.
Proof. rewrite !along_coord, !coord_value. unfold hval. ring. Qed.
Lemma along_velocity u ta tb (ka kb : knot R) t :
  along u (e3_segment_velocity ta tb ka kb t) = hvel ta tb (along u (k_pos ka)) (along u (k_vel ka)) (along u (k_pos kb)) (along u (k_vel kb)) t.
Proof. rewrite !along_coord, !coord_velocity. unfold hvel. ring. Qed.

Lemma three (X Y Z : R -> R) a b c x y z t : is_derive X t x -> is_derive Y t y -> is_derive Z t z ->
  is_derive (fun s => a * X s + b * Y s + c * Z s) t (a * x + b * y + c * z).
Proof.
  intros Dx Dy Dz. auto_derive; [repeat split; eexists; eassumption|].
  change (fun x => X x) with X. change (fun x => Y x) with Y. change (fun x => Z x) with Z.
  rewrite (is_derive_unique _ _ _ Dx), (is_derive_unique _ _ _ Dy), (is_derive_unique _ _ _ Dz). ring.
Qed.

Lemma along_moves u f v lo hi : moves f v lo hi -> forall t, lo <= t <= hi -> is_derive (fun s => along u (f s)) t (along u (v t)).
Proof.
  intros M t Ht. apply (three (fun s => HermiteE3.vx (f s)) (fun s => vy (f s)) (fun s => vz (f s))); [exact (M AX t Ht)|exact (M AY t Ht)|exact (M AZ t Ht)].
Qed.

Lemma along_changes u A v lo hi : vnorm u = 1 -> changes A v lo hi ->
  forall s t, lo <= s <= hi -> lo <= t <= hi -> Rabs (along u (v s) - along u (v t)) <= A * Rabs (s - t).
Proof. intros U C s t Hs Ht. rewrite <- along_sub. eapply Rle_trans; [now apply along_le|]. now apply C. Qed.

(** ** Segments of a fit *)

Local Ltac products := lazymatch goal with |- 0 <= _ * _ => apply Rmult_le_pos; products | |- 0 <= _ / _ => apply Rmult_le_pos; products | _ => lra end.


Section First.
Variables (F G : R -> R) (lo hi A h : R).
Hypothesis HF : forall t, lo <= t <= hi -> is_derive F t (G t).
Hypothesis HG : forall s t, lo <= s <= hi -> lo <= t <= hi -> Rabs (G s - G t) <= A * Rabs (s - t).
Hypothesis HA : 0 <= A.

(** The velocity stored at a knot between two others. *)
Lemma slope_after ta tb tc t : lo <= ta -> tc <= hi -> ta < tb -> tb < tc -> tb - ta <= h -> tc - tb <= h -> ta <= t <= tb ->
  let y := (tb - t) / (tb - ta) in Rabs (1 / (tc - ta) * (F tc - F ta) - G t) <= A * h * ((1 + y * y) / 2).
Proof.
  intros La Lc L1 L2 G1 G2 Ht y.
  pose proof (taylor1 F G lo hi HF A ta t HG ltac:(lra) ltac:(lra)) as Ta. pose proof (taylor1 F G lo hi HF A tc t HG ltac:(lra) ltac:(lra)) as Tc.
  set (ea := F ta - _) in Ta. set (ec := F tc - _) in Tc.
  replace (1 / (tc - ta) * (F tc - F ta) - G t) with (1 / (tc - ta) * (ec - ea)) by (unfold ec, ea; field; lra).
  assert (P : 0 < 1 / (tc - ta)) by (apply Rdiv_lt_0_compat; lra).
  rewrite Rabs_mult, (Rabs_pos_eq (1 / (tc - ta))) by lra.
  assert (Q : Rabs (ec - ea) <= A * ((tc - t) * (tc - t) / 2) + A * ((ta - t) * (ta - t) / 2)).
  { unfold Rminus at 1. eapply Rle_trans; [apply Rabs_triang|]. rewrite Rabs_Ropp. now apply Rplus_le_compat. }
  assert (Y : 0 <= y <= 1).
  { unfold y. pose proof (fraction_bounds ta tb t L1 Ht) as X. replace ((tb - t) / (tb - ta)) with (1 - (t - ta) / (tb - ta)) by (field; lra). lra. }
  pose proof (slope_poly y (tb - ta) (tc - tb) h Y ltac:(lra) ltac:(lra)) as S.
  replace (tc - tb + y * (tb - ta)) with (tc - t) in S by (unfold y; field; lra).
  replace ((1 - y) * (tb - ta)) with (t - ta) in S by (unfold y; field; lra).
  apply Rle_trans with (1 / (tc - ta) * (A * ((h * (1 + y * y) * (tc - tb + (tb - ta))) / 2))).
  - apply Rmult_le_compat_l; [lra|]. eapply Rle_trans; [exact Q|].
    replace (A * ((tc - t) * (tc - t) / 2) + A * ((ta - t) * (ta - t) / 2)) with (A * (((tc - t) * (tc - t) + (t - ta) * (t - ta)) / 2)) by field.
    apply Rmult_le_compat_l; lra.
  - right. field. lra.
Qed.

Lemma slope_before tp ta tb t : lo <= tp -> tb <= hi -> tp < ta -> ta < tb -> ta - tp <= h -> tb - ta <= h -> ta <= t <= tb ->
  let x := (t - ta) / (tb - ta) in Rabs (1 / (tb - tp) * (F tb - F tp) - G t) <= A * h * ((1 + x * x) / 2).
Proof.
  intros La Lc L1 L2 G1 G2 Ht x.
  pose proof (taylor1 F G lo hi HF A tp t HG ltac:(lra) ltac:(lra)) as Ta. pose proof (taylor1 F G lo hi HF A tb t HG ltac:(lra) ltac:(lra)) as Tc.
  set (ea := F tp - _) in Ta. set (ec := F tb - _) in Tc.
  replace (1 / (tb - tp) * (F tb - F tp) - G t) with (1 / (tb - tp) * (ec - ea)) by (unfold ec, ea; field; lra).
  assert (P : 0 < 1 / (tb - tp)) by (apply Rdiv_lt_0_compat; lra).
  rewrite Rabs_mult, (Rabs_pos_eq (1 / (tb - tp))) by lra.
  assert (Q : Rabs (ec - ea) <= A * ((tb - t) * (tb - t) / 2) + A * ((tp - t) * (tp - t) / 2)).
  { unfold Rminus at 1. eapply Rle_trans; [apply Rabs_triang|]. rewrite Rabs_Ropp. now apply Rplus_le_compat. }
  pose proof (fraction_bounds ta tb t L2 Ht) as X. change ((t - ta) / (tb - ta)) with x in X.
  pose proof (slope_poly x (tb - ta) (ta - tp) h X ltac:(lra) ltac:(lra)) as S.
  replace (ta - tp + x * (tb - ta)) with (t - tp) in S by (unfold x; field; lra).
  replace ((1 - x) * (tb - ta)) with (tb - t) in S by (unfold x; field; lra).
  apply Rle_trans with (1 / (tb - tp) * (A * ((h * (1 + x * x) * (ta - tp + (tb - ta))) / 2))).
  - apply Rmult_le_compat_l; [lra|]. eapply Rle_trans; [exact Q|].
    replace (A * ((tb - t) * (tb - t) / 2) + A * ((tp - t) * (tp - t) / 2)) with (A * (((t - tp) * (t - tp) + (tb - t) * (tb - t)) / 2)) by field.
    apply Rmult_le_compat_l; lra.
  - right. field. lra.
Qed.

(** The velocity given for an end. *)
Lemma end_velocity ta tb t e : lo <= ta -> tb <= hi -> ta < tb -> tb - ta <= h -> ta <= t <= tb -> ta <= e <= tb ->
  let x := (t - e) / (tb - ta) in Rabs (G e - G t) <= A * h * ((1 + x * x) / 2).
Proof.
  intros La Lb L Gh Ht He x. eapply Rle_trans; [apply HG; lra|].
  assert (E : Rabs (e - t) = Rabs x * (tb - ta)).
  { rewrite <- (Rabs_pos_eq (tb - ta)) at 1 by lra. rewrite <- Rabs_mult, <- Rabs_Ropp. f_equal. unfold x. field. lra. }
  rewrite E. pose proof (Rabs_pos x) as P. assert (S : x * x = Rabs x * Rabs x) by (rewrite <- Rabs_mult; symmetry; apply Rabs_pos_eq, Rle_0_sqr).
  rewrite S. rewrite Rmult_assoc. apply Rmult_le_compat_l; [exact HA|].
  apply Rle_trans with (Rabs x * h); [apply Rmult_le_compat_l; lra|]. rewrite (Rmult_comm (Rabs x)). apply Rmult_le_compat_l; [lra|].
  pose proof (Rle_0_sqr (1 - Rabs x)) as Q. unfold Rsqr in Q. lra.
Qed.

Lemma first_segment ta tb v0 v1 t : lo <= ta -> tb <= hi -> ta < tb -> tb - ta <= h -> ta <= t <= tb ->
  let x := (t - ta) / (tb - ta) in
  Rabs (v0 - G t) <= A * h * ((1 + x * x) / 2) -> Rabs (v1 - G t) <= A * h * ((1 + (1 - x) * (1 - x)) / 2) ->
  Rabs (hval ta tb (F ta) v0 (F tb) v1 t - F t) <= 9 / 32 * A * (h * h) /\ Rabs (hvel ta tb (F ta) v0 (F tb) v1 t - G t) <= 3 / 4 * A * h.
Proof.
  intros La Lb L Gh Ht x W0 W1. pose proof (fraction_bounds ta tb t L Ht) as X. change ((t - ta) / (tb - ta)) with x in X.
  pose proof (taylor1 F G lo hi HF A ta t HG ltac:(lra) ltac:(lra)) as Ta. pose proof (taylor1 F G lo hi HF A tb t HG ltac:(lra) ltac:(lra)) as Tb.
  assert (W0' : Rabs (v0 - (G t + 2 * 0 * (ta - t))) <= A * h * ((1 + x * x) / 2)) by (replace (G t + 2 * 0 * (ta - t)) with (G t) by ring; exact W0).
  assert (W1' : Rabs (v1 - (G t + 2 * 0 * (tb - t))) <= A * h * ((1 + (1 - x) * (1 - x)) / 2)) by (replace (G t + 2 * 0 * (tb - t)) with (G t) by ring; exact W1).
  pose proof (value_error ta tb (F ta) v0 (F tb) v1 t _ _ _ _ _ _ _ L Ht Ta Tb W0' W1') as V.
  pose proof (velocity_error ta tb (F ta) v0 (F tb) v1 t _ _ _ _ _ _ _ L Ht Ta Tb W0' W1') as W. cbv zeta in V, W.
  change ((t - ta) / (tb - ta)) with x in V, W. set (d := tb - ta) in *.
  replace ((ta - t) * (ta - t) / 2) with (d * d * (x * x / 2)) in V, W by (unfold x, d; field; unfold d in *; lra).
  replace ((tb - t) * (tb - t) / 2) with (d * d * ((1 - x) * (1 - x) / 2)) in V, W by (unfold x, d; field; unfold d in *; lra).
  assert (Pd : 0 < d) by (unfold d; lra).
  assert (B1 : 0 <= (1 - x) * (1 - x) * (1 + 2 * x) * (x * x / 2) + x * x * (3 - 2 * x) * ((1 - x) * (1 - x) / 2)).
  { pose proof (Rle_0_sqr x). pose proof (Rle_0_sqr (1 - x)). unfold Rsqr in *. apply Rplus_le_le_0_compat; products. }
  assert (B2 : 0 <= x * ((1 - x) * (1 - x)) * ((1 + x * x) / 2) + x * x * (1 - x) * ((1 + (1 - x) * (1 - x)) / 2)).
  { pose proof (Rle_0_sqr x). pose proof (Rle_0_sqr (1 - x)). unfold Rsqr in *. apply Rplus_le_le_0_compat; products. }
  assert (B3 : 0 <= 6 * x * (1 - x) * (x * x / 2) + 6 * x * (1 - x) * ((1 - x) * (1 - x) / 2)).
  { pose proof (Rle_0_sqr x). pose proof (Rle_0_sqr (1 - x)). unfold Rsqr in *. apply Rplus_le_le_0_compat; products. }
  assert (Dh : d * d <= h * h) by nra. assert (Dh2 : d * h <= h * h) by nra. split.
  - eapply Rle_trans; [exact V|]. pose proof (position_poly x X) as P.
    set (k1 := _ + _) in B1. set (k2 := _ + _) in B2.
    apply Rle_trans with (A * (d * d * k1 + d * h * k2)); [right; unfold k1, k2; ring|].
    apply Rle_trans with (A * (h * h * (9 / 32))); [|right; ring]. apply Rmult_le_compat_l; [exact HA|].
    apply Rle_trans with (h * h * (k1 + k2)); [nra|]. apply Rmult_le_compat_l; [nra|]. unfold k1, k2. lra.
  - eapply Rle_trans; [exact W|]. pose proof (velocity_poly x X) as P.
    set (k1 := _ + _) in B3. set (k2 := Rabs ((1 - x) * (1 - 3 * x)) * ((1 + x * x) / 2) + Rabs (x * (2 - 3 * x)) * ((1 + (1 - x) * (1 - x)) / 2)).
    apply Rle_trans with (A * (d * k1 + h * k2)); [right; unfold k1, k2; field; lra|].
    apply Rle_trans with (A * (h * (3 / 4))); [|right; ring]. apply Rmult_le_compat_l; [exact HA|].
    apply Rle_trans with (h * (k1 + k2)); [nra|]. apply Rmult_le_compat_l; [lra|]. unfold k1, k2. lra.
Qed.
End First.

Section Second.
Variables (F G H : R -> R) (lo hi J h : R).
Hypothesis HF : forall t, lo <= t <= hi -> is_derive F t (G t).
Hypothesis HG : forall t, lo <= t <= hi -> is_derive G t (H t).
Hypothesis HH : forall s t, lo <= s <= hi -> lo <= t <= hi -> Rabs (H s - H t) <= J * Rabs (s - t).
Hypothesis HJ : 0 <= J.
Hypothesis Hh : 0 < h.

Lemma central_slope tm t : lo <= tm - h -> tm + h <= hi -> tm - h <= t <= tm + h ->
  let y := (t - tm) / h in
  Rabs (1 / (2 * h) * (F (tm + h) - F (tm - h)) - (G t + 2 * (H t / 2) * (tm - t))) <= J * (h * h) * ((1 + 3 * (y * y)) / 6).
Proof.
  intros La Lc Ht y.
  destruct (taylor2 F G lo hi HF H HG J (tm - h) t HH ltac:(lra) ltac:(lra)) as [Ta _].
  destruct (taylor2 F G lo hi HF H HG J (tm + h) t HH ltac:(lra) ltac:(lra)) as [Tc _].
  rewrite (Rabs_left1 (tm - h - t)) in Ta by lra. rewrite (Rabs_pos_eq (tm + h - t)) in Tc by lra.
  set (ea := F (tm - h) - _) in Ta. set (ec := F (tm + h) - _) in Tc.
  replace (1 / (2 * h) * (F (tm + h) - F (tm - h)) - (G t + 2 * (H t / 2) * (tm - t))) with (1 / (2 * h) * (ec - ea)) by (unfold ec, ea; field; lra).
  assert (P : 0 < 1 / (2 * h)) by (apply Rdiv_lt_0_compat; lra).
  rewrite Rabs_mult, (Rabs_pos_eq (1 / (2 * h))) by lra.
  apply Rle_trans with (1 / (2 * h) * (J * ((tm + h - t) * (tm + h - t) * (tm + h - t) / 6) + J * (- (tm - h - t) * - (tm - h - t) * - (tm - h - t) / 6))).
  - apply Rmult_le_compat_l; [lra|]. unfold Rminus at 1. eapply Rle_trans; [apply Rabs_triang|]. rewrite Rabs_Ropp. now apply Rplus_le_compat.
  - right. unfold y. field. lra.
Qed.

Lemma end_velocity2 t e : lo <= t <= hi -> lo <= e <= hi ->
  let y := (t - e) / h in Rabs (G e - (G t + 2 * (H t / 2) * (e - t))) <= J * (h * h) * ((1 + 3 * (y * y)) / 6).
Proof.
  intros Ht He y. destruct (taylor2 F G lo hi HF H HG J e t HH He Ht) as [_ T]. eapply Rle_trans; [exact T|].
  replace (e - t) with (- (y * h)) by (unfold y; field; lra). rewrite Rmult_assoc. apply Rmult_le_compat_l; [exact HJ|].
  assert (0 < h * h) by now apply Rmult_lt_0_compat.
  replace (- (y * h) * - (y * h) / 2) with (h * h * (y * y / 2)) by field. apply Rmult_le_compat_l; lra.
Qed.

Lemma second_segment ta tb v0 v1 t : lo <= ta -> tb <= hi -> tb - ta = h -> ta <= t <= tb ->
  let x := (t - ta) / (tb - ta) in
  Rabs (v0 - (G t + 2 * (H t / 2) * (ta - t))) <= J * (h * h) * ((1 + 3 * (x * x)) / 6) ->
  Rabs (v1 - (G t + 2 * (H t / 2) * (tb - t))) <= J * (h * h) * ((1 + 3 * ((1 - x) * (1 - x))) / 6) ->
  Rabs (hval ta tb (F ta) v0 (F tb) v1 t - F t) <= 3 / 32 * J * (h * h * h) /\ Rabs (hvel ta tb (F ta) v0 (F tb) v1 t - G t) <= 3 / 10 * J * (h * h).
Proof.
  intros La Lb Gh Ht x W0 W1. assert (L : ta < tb) by lra. pose proof (fraction_bounds ta tb t L Ht) as X. change ((t - ta) / (tb - ta)) with x in X.
  destruct (taylor2 F G lo hi HF H HG J ta t HH ltac:(lra) ltac:(lra)) as [Ta _]. destruct (taylor2 F G lo hi HF H HG J tb t HH ltac:(lra) ltac:(lra)) as [Tb _].
  rewrite (Rabs_left1 (ta - t)) in Ta by lra. rewrite (Rabs_pos_eq (tb - t)) in Tb by lra.
  pose proof (value_error ta tb (F ta) v0 (F tb) v1 t _ _ _ _ _ _ _ L Ht Ta Tb W0 W1) as V.
  pose proof (velocity_error ta tb (F ta) v0 (F tb) v1 t _ _ _ _ _ _ _ L Ht Ta Tb W0 W1) as W. cbv zeta in V, W.
  change ((t - ta) / (tb - ta)) with x in V, W. rewrite Gh in V, W.
  replace (- (ta - t) * - (ta - t) * - (ta - t) / 6) with (h * h * h * (x * x * x / 6)) in V, W by (unfold x; rewrite Gh; field; lra).
  replace ((tb - t) * (tb - t) * (tb - t) / 6) with (h * h * h * ((1 - x) * (1 - x) * (1 - x) / 6)) in V, W
    by (unfold x; rewrite Gh; replace tb with (ta + h) by lra; field; lra).
  assert (P2 : 0 < h * h) by now apply Rmult_lt_0_compat. assert (P3 : 0 < h * h * h) by now apply Rmult_lt_0_compat. split.
  - eapply Rle_trans; [exact V|]. pose proof (position_poly3 x X) as P.
    apply Rle_trans with (J * (h * h * h * (3 / 32))); [|right; ring].
    set (k := _ + _) in P. apply Rle_trans with (J * (h * h * h * k)); [right; unfold k; ring|].
    apply Rmult_le_compat_l; [exact HJ|]. apply Rmult_le_compat_l; lra.
  - eapply Rle_trans; [exact W|]. pose proof (velocity_poly3 x X) as P.
    apply Rle_trans with (J * (h * h * (3 / 10))); [|right; ring].
    set (k := _ + _) in P. apply Rle_trans with (J * (h * h * k)); [right; unfold k; field; lra|].
    apply Rmult_le_compat_l; [exact HJ|]. apply Rmult_le_compat_l; lra.
Qed.
End Second.

(** ** Curves *)

(** Not in the source: the velocity stored at the [i]-th sample. *)
Definition sample_velocity (f v : R -> vec3 R) (ts : list R) (i : nat) : vec3 R :=
  match i with
  | O => v (at_knot ts 0)
  | S j => if Nat.eqb (S i) (length ts) then v (at_knot ts i)
           else vscale (1 / (at_knot ts (S i) - at_knot ts j)) (HermiteE3.vsub (f (at_knot ts (S i))) (f (at_knot ts j)))
  end.

(** Not in the source: what a fit to samples stores. *)
Definition samples_stored (f v : R -> vec3 R) (ts : list R) (x : e3_curve R) : Prop :=
  forall i, (i < length ts)%nat -> nth_error (contents x) i = Some (at_knot ts i, Knot (f (at_knot ts i)) (sample_velocity f v ts i)).

Section Curve.
Variables (f v : R -> vec3 R) (ts : list R) (x : e3_curve R).
Hypothesis Hx : consistent x.
Hypothesis H2 : (2 <= length ts)%nat.
Hypothesis Hi : increasing_times ts.
Hypothesis Hs : samples_stored f v ts x.
Let lo := at_knot ts 0.
Let hi := at_knot ts (length ts - 1).
Hypothesis Hm : moves f v lo hi.

Lemma in_range i : (i < length ts)%nat -> lo <= at_knot ts i <= hi.
Proof. intros Li. split; apply times_le; auto; lia. Qed.

Lemma stored_segment t : lo <= t <= hi -> exists k, (S k < length ts)%nat /\ at_knot ts k <= t <= at_knot ts (S k) /\
  e3_evaluate x t = Ok (Some (e3_segment_value (at_knot ts k) (at_knot ts (S k)) (Knot (f (at_knot ts k)) (sample_velocity f v ts k))
    (Knot (f (at_knot ts (S k))) (sample_velocity f v ts (S k))) t)) /\
  e3_evaluate_derivative x t 1 = Ok (Some (e3_segment_velocity (at_knot ts k) (at_knot ts (S k)) (Knot (f (at_knot ts k)) (sample_velocity f v ts k))
    (Knot (f (at_knot ts (S k))) (sample_velocity f v ts (S k))) t)).
Proof.
  intros Hr. destruct (times_segment_from ts 0 t Hi ltac:(lia) Hr) as (k & _ & Lk & Ht). exists k. split; [exact Lk|]. split; [exact Ht|].
  destruct (nth_adjacent _ _ _ _ (Hs k ltac:(lia)) (Hs (S k) Lk)) as (u & w & Ec & _). split.
  - exact (evaluate_segment x u _ _ _ _ w t Hx Ec Ht).
  - exact (velocity_segment x u _ _ _ _ w t Hx Ec Ht).
Qed.

Lemma along_stored u i : (i < length ts)%nat -> along u (sample_velocity f v ts i) =
  match i with
  | O => along u (v (at_knot ts 0))
  | S j => if Nat.eqb (S i) (length ts) then along u (v (at_knot ts i))
           else 1 / (at_knot ts (S i) - at_knot ts j) * (along u (f (at_knot ts (S i))) - along u (f (at_knot ts j)))
  end.
Proof.
  intros _. unfold sample_velocity. destruct i as [|j]; [reflexivity|]. destruct (Nat.eqb (S (S j)) (length ts)); [reflexivity|].
  now rewrite along_scale, along_sub.
Qed.

Lemma curve_first A h t : changes A v lo hi -> gaps h ts -> lo <= t <= hi ->
  exists p w, e3_evaluate x t = Ok (Some p) /\ e3_evaluate_derivative x t 1 = Ok (Some w) /\
    vnorm (HermiteE3.vsub p (f t)) <= 9 / 32 * A * (h * h) /\ vnorm (HermiteE3.vsub w (v t)) <= 3 / 4 * A * h.
Proof.
  intros Hc Hg Hr. destruct (stored_segment t Hr) as (k & Lk & Ht & Ep & Ew).
  do 2 eexists. split; [exact Ep|]. split; [exact Ew|].
  pose proof (Hi k Lk) as L. pose proof (Hg k Lk) as Gk. pose proof (in_range k ltac:(lia)) as Ra. pose proof (in_range (S k) Lk) as Rb.
  assert (HA : 0 <= A).
  { pose proof (Hc _ _ Ra Rb) as Q. pose proof (vnorm_pos (HermiteE3.vsub (v (at_knot ts k)) (v (at_knot ts (S k))))) as P.
    rewrite Rabs_left in Q by lra. nra. }
  assert (Hh : 0 < h) by lra.
  assert (K : forall u, vnorm u = 1 ->
    Rabs (along u (HermiteE3.vsub (e3_segment_value (at_knot ts k) (at_knot ts (S k)) (Knot (f (at_knot ts k)) (sample_velocity f v ts k))
      (Knot (f (at_knot ts (S k))) (sample_velocity f v ts (S k))) t) (f t))) <= 9 / 32 * A * (h * h) /\
    Rabs (along u (HermiteE3.vsub (e3_segment_velocity (at_knot ts k) (at_knot ts (S k)) (Knot (f (at_knot ts k)) (sample_velocity f v ts k))
      (Knot (f (at_knot ts (S k))) (sample_velocity f v ts (S k))) t) (v t))) <= 3 / 4 * A * h).
  { intros u U. rewrite !along_sub, along_value, along_velocity. cbn [k_pos k_vel].
    apply (first_segment (fun s => along u (f s)) (fun s => along u (v s)) lo hi A h (along_moves u f v lo hi Hm) (along_changes u A v lo hi U Hc) HA); try lra.
    - rewrite along_stored by lia. destruct k as [|j].
      + apply (end_velocity (fun s => along u (v s)) lo hi A h (along_changes u A v lo hi U Hc) HA (at_knot ts 0) (at_knot ts 1) t (at_knot ts 0)); lra.
      + destruct (Nat.eqb_spec (S (S j)) (length ts)) as [Z|Z]; [lia|].
        pose proof (Hi j ltac:(lia)). pose proof (Hg j ltac:(lia)). pose proof (in_range j ltac:(lia)).
        apply (slope_before (fun s => along u (f s)) (fun s => along u (v s)) lo hi A h (along_moves u f v lo hi Hm) (along_changes u A v lo hi U Hc) HA); lra.
    - rewrite along_stored by lia.
      replace (1 - (t - at_knot ts k) / (at_knot ts (S k) - at_knot ts k)) with ((at_knot ts (S k) - t) / (at_knot ts (S k) - at_knot ts k)) by (field; lra).
      destruct (Nat.eqb_spec (S (S k)) (length ts)) as [Z|Z].
      + pose proof (end_velocity (fun s => along u (v s)) lo hi A h (along_changes u A v lo hi U Hc) HA (at_knot ts k) (at_knot ts (S k)) t (at_knot ts (S k))
          ltac:(lra) ltac:(lra) L Gk Ht ltac:(lra)) as Q. cbv zeta in Q.
        replace ((t - at_knot ts (S k)) / (at_knot ts (S k) - at_knot ts k)) with (- ((at_knot ts (S k) - t) / (at_knot ts (S k) - at_knot ts k))) in Q by (field; lra).
        now rewrite Rmult_opp_opp in Q.
      + pose proof (Hi (S k) ltac:(lia)). pose proof (Hg (S k) ltac:(lia)). pose proof (in_range (S (S k)) ltac:(lia)).
        apply (slope_after (fun s => along u (f s)) (fun s => along u (v s)) lo hi A h (along_moves u f v lo hi Hm) (along_changes u A v lo hi U Hc) HA); lra. }
  split; apply along_norm; try (intros u U; eapply Rle_trans; [apply Rle_abs|]; now apply K).
  - apply Rmult_le_pos; [lra|]. apply Rmult_le_pos; lra.
  - apply Rmult_le_pos; lra.
Qed.

Lemma curve_second a J h t : moves v a lo hi -> changes J a lo hi -> regular h ts -> lo <= t <= hi ->
  exists p w, e3_evaluate x t = Ok (Some p) /\ e3_evaluate_derivative x t 1 = Ok (Some w) /\
    vnorm (HermiteE3.vsub p (f t)) <= 3 / 32 * J * (h * h * h) /\ vnorm (HermiteE3.vsub w (v t)) <= 3 / 10 * J * (h * h).
Proof.
  intros Hv Hc Hg Hr. destruct (stored_segment t Hr) as (k & Lk & Ht & Ep & Ew).
  do 2 eexists. split; [exact Ep|]. split; [exact Ew|].
  pose proof (Hi k Lk) as L. pose proof (Hg k Lk) as Gk. pose proof (in_range k ltac:(lia)) as Ra. pose proof (in_range (S k) Lk) as Rb.
  assert (HJ : 0 <= J).
  { pose proof (Hc _ _ Ra Rb) as Q. pose proof (vnorm_pos (HermiteE3.vsub (a (at_knot ts k)) (a (at_knot ts (S k))))) as P.
    rewrite Rabs_left in Q by lra. nra. }
  assert (Hh : 0 < h) by lra.
  assert (K : forall u, vnorm u = 1 ->
    Rabs (along u (HermiteE3.vsub (e3_segment_value (at_knot ts k) (at_knot ts (S k)) (Knot (f (at_knot ts k)) (sample_velocity f v ts k))
      (Knot (f (at_knot ts (S k))) (sample_velocity f v ts (S k))) t) (f t))) <= 3 / 32 * J * (h * h * h) /\
    Rabs (along u (HermiteE3.vsub (e3_segment_velocity (at_knot ts k) (at_knot ts (S k)) (Knot (f (at_knot ts k)) (sample_velocity f v ts k))
      (Knot (f (at_knot ts (S k))) (sample_velocity f v ts (S k))) t) (v t))) <= 3 / 10 * J * (h * h)).
  { intros u U. rewrite !along_sub, along_value, along_velocity. cbn [k_pos k_vel].
    set (F := fun s => along u (f s)). set (G := fun s => along u (v s)). set (H := fun s => along u (a s)).
    pose proof (along_moves u f v lo hi Hm) as DF. pose proof (along_moves u v a lo hi Hv) as DG. pose proof (along_changes u J a lo hi U Hc) as DH.
    apply (second_segment F G H lo hi J h DF DG DH HJ Hh); try lra.
    - rewrite Gk, along_stored by lia. destruct k as [|j]; [apply (end_velocity2 F G H lo hi J h DF DG DH HJ Hh t (at_knot ts 0)); lra|].
      destruct (Nat.eqb_spec (S (S j)) (length ts)) as [Z|Z]; [lia|].
      pose proof (Hg j ltac:(lia)) as Gj. pose proof (in_range j ltac:(lia)).
      pose proof (central_slope F G H lo hi J h DF DG DH Hh (at_knot ts (S j)) t) as Q. cbv zeta in Q.
      replace (at_knot ts (S j) + h) with (at_knot ts (S (S j))) in Q by lra. replace (at_knot ts (S j) - h) with (at_knot ts j) in Q by lra.
      replace (2 * h) with (at_knot ts (S (S j)) - at_knot ts j) in Q by lra. apply Q; lra.
    - rewrite along_stored by lia.
      replace ((1 - (t - at_knot ts k) / (at_knot ts (S k) - at_knot ts k)) * (1 - (t - at_knot ts k) / (at_knot ts (S k) - at_knot ts k)))
        with ((t - at_knot ts (S k)) / h * ((t - at_knot ts (S k)) / h)) by (rewrite Gk; replace (at_knot ts (S k)) with (at_knot ts k + h) by lra; field; lra).
      destruct (Nat.eqb_spec (S (S k)) (length ts)) as [Z|Z]; [apply (end_velocity2 F G H lo hi J h DF DG DH HJ Hh t (at_knot ts (S k))); lra|].
      pose proof (Hg (S k) ltac:(lia)) as Gj. pose proof (in_range (S (S k)) ltac:(lia)).
      pose proof (central_slope F G H lo hi J h DF DG DH Hh (at_knot ts (S k)) t) as Q. cbv zeta in Q.
      replace (at_knot ts (S k) + h) with (at_knot ts (S (S k))) in Q by lra. replace (at_knot ts (S k) - h) with (at_knot ts k) in Q by lra.
      replace (2 * h) with (at_knot ts (S (S k)) - at_knot ts k) in Q by lra. apply Q; lra. }
  assert (0 < h * h) by now apply Rmult_lt_0_compat.
  split; apply along_norm; try (intros u U; eapply Rle_trans; [apply Rle_abs|]; now apply K).
  - apply Rmult_le_pos; [lra|]. apply Rmult_le_pos; lra.
  - apply Rmult_le_pos; lra.
Qed.
End Curve.

Lemma nth_sample (f : R -> vec3 R) ts i : (i < length ts)%nat -> nth i (map f ts) vzero = f (at_knot ts i).
Proof. intros L. rewrite (nth_indep _ vzero (f 0)) by (rewrite map_length; exact L). apply map_nth. Qed.

Lemma slope_sample tA tB (a b : vec3 R) : e3_slope tA tB a b = vscale (1 / (tB - tA)) (HermiteE3.vsub b a).
Proof. unfold e3_slope. numR. apply vmul_scale. Qed.

Lemma e3_samples f v ts (x : e3_curve R) :
  contents x = combine ts (map (fit_knot ts (map f ts) (v (at_knot ts 0)) (v (at_knot ts (length ts - 1)))) (seq 0 (length ts))) -> samples_stored f v ts x.
Proof.
  intros Hcon i Li. rewrite (fitted_nth x ts (map f ts) _ _ i Hcon Li). rewrite nth_sample by exact Li. do 3 f_equal.
  unfold fit_velocity, sample_velocity. destruct i as [|j]; [reflexivity|]. destruct (Nat.eqb_spec (S (S j)) (length ts)) as [Z|Z]; [do 2 f_equal; lia|].
  rewrite !nth_sample by lia. apply slope_sample.
Qed.

Lemma se3_samples K f v ts vs d0 d1 (x : se3_curve R) : length ts = length vs -> map p_pos vs = map f ts ->
  t_lin d0 = v (at_knot ts 0) -> t_lin d1 = v (at_knot ts (length ts - 1)) ->
  contents (h_mgr x) = combine ts (fit_coefficients (se3_slope K) d0 d1 None (combine ts vs)) -> samples_stored f v ts (translation x).
Proof.
  intros Hl Hp D0 D1 Hcon i Li.
  assert (Q : forall j, (j < length ts)%nat -> exists p, nth_error ts j = Some (at_knot ts j) /\ nth_error vs j = Some p /\ p_pos p = f (at_knot ts j)).
  { intros j Lj. destruct (nth_error ts j) as [s|] eqn:Es; [|apply nth_error_None in Es; lia].
    destruct (nth_error vs j) as [p|] eqn:Ev; [|apply nth_error_None in Ev; lia]. exists p. rewrite (at_knot_nth _ _ _ Es). repeat split.
    pose proof (f_equal (fun l => nth_error l j) Hp) as E. cbn beta in E. rewrite !nth_error_map, Es, Ev in E. cbn in E. congruence. }
  destruct (Q i Li) as (p & Et & Ev & Ep).
  rewrite translation_contents, nth_error_map, Hcon, (se3_fitted_nth K ts vs d0 d1 i _ p Hl Et Ev). cbn [option_map fst snd].
  unfold e3_knot. cbn [fst snd]. rewrite Ep. do 3 f_equal.
  unfold se3_knot_twist, sample_velocity. destruct i as [|j]; [exact D0|].
  destruct (Q j ltac:(lia)) as (p0 & Et0 & Ev0 & Ep0). rewrite Et0, Ev0.
  destruct (Nat.eqb_spec (S (S j)) (length ts)) as [Z|Z].
  - assert (nth_error ts (S (S j)) = None) as -> by (apply nth_error_None; lia). rewrite D1. do 2 f_equal. lia.
  - destruct (Q (S (S j)) ltac:(lia)) as (p2 & Et2 & Ev2 & Ep2). rewrite Et2, Ev2. unfold se3_slope. cbv zeta. cbn [t_lin]. numR.
    rewrite Ep0, Ep2. apply vmul_scale.
Qed.

(** ** C112 *)

(** The fit of samples of a motion whose velocity changes by at most [A] per second. *)
Theorem C112_fit : forall debug g (c : e3_curve R) A h f v ts out,
  consistent c -> e3_size c = 0%nat -> (2 <= length ts)%nat -> increasing_times ts -> (g + N.of_nat (length ts) < 2 ^ 64)%N ->
  moves f v (at_knot ts 0) (at_knot ts (length ts - 1)) -> changes A v (at_knot ts 0) (at_knot ts (length ts - 1)) -> gaps h ts ->
  exists g' c' ks, e3_fit_with_derivatives debug g c ts (map f ts) (v (at_knot ts 0)) (v (at_knot ts (length ts - 1))) out = Ok (g', c', ks) /\
    forall t, at_knot ts 0 <= t <= at_knot ts (length ts - 1) ->
      exists p w, e3_evaluate c' t = Ok (Some p) /\ e3_evaluate_derivative c' t 1 = Ok (Some w) /\
        vnorm (HermiteE3.vsub p (f t)) <= 9 / 32 * A * (h * h) /\ vnorm (HermiteE3.vsub w (v t)) <= 3 / 4 * A * h.
Proof.
  intros debug g c A h f v ts out Hc Hz H2 Hi Hg Hm Ha Hh.
  destruct (e3_fit_spec debug g c ts (map f ts) (v (at_knot ts 0)) (v (at_knot ts (length ts - 1))) out Hc Hz ltac:(now rewrite map_length) Hi Hg)
    as (x & ks & E & _ & [Hx _] & Hcon).
  do 3 eexists. split; [exact E|]. intros t Ht. apply (curve_first f v ts x Hx H2 Hi (e3_samples f v ts x Hcon) Hm); auto.
Qed.

(** At regular times, of a motion whose acceleration changes by at most [J] per second. *)
Theorem C112_fit_regular : forall debug g (c : e3_curve R) J h f v a ts out,
  consistent c -> e3_size c = 0%nat -> (2 <= length ts)%nat -> increasing_times ts -> (g + N.of_nat (length ts) < 2 ^ 64)%N ->
  moves f v (at_knot ts 0) (at_knot ts (length ts - 1)) -> moves v a (at_knot ts 0) (at_knot ts (length ts - 1)) ->
  changes J a (at_knot ts 0) (at_knot ts (length ts - 1)) -> regular h ts ->
  exists g' c' ks, e3_fit_with_derivatives debug g c ts (map f ts) (v (at_knot ts 0)) (v (at_knot ts (length ts - 1))) out = Ok (g', c', ks) /\
    forall t, at_knot ts 0 <= t <= at_knot ts (length ts - 1) ->
      exists p w, e3_evaluate c' t = Ok (Some p) /\ e3_evaluate_derivative c' t 1 = Ok (Some w) /\
        vnorm (HermiteE3.vsub p (f t)) <= 3 / 32 * J * (h * h * h) /\ vnorm (HermiteE3.vsub w (v t)) <= 3 / 10 * J * (h * h).
Proof.
  intros debug g c J h f v a ts out Hc Hz H2 Hi Hg Hm Hv Ha Hh.
  destruct (e3_fit_spec debug g c ts (map f ts) (v (at_knot ts 0)) (v (at_knot ts (length ts - 1))) out Hc Hz ltac:(now rewrite map_length) Hi Hg)
    as (x & ks & E & _ & [Hx _] & Hcon).
  do 3 eexists. split; [exact E|]. intros t Ht. apply (curve_second f v ts x Hx H2 Hi (e3_samples f v ts x Hcon) Hm a); auto.
Qed.

Lemma se3_bounds K (x : se3_curve R) f v t B C :
  (exists p w, e3_evaluate (translation x) t = Ok (Some p) /\ e3_evaluate_derivative (translation x) t 1 = Ok (Some w) /\
    vnorm (HermiteE3.vsub p (f t)) <= B /\ vnorm (HermiteE3.vsub w (v t)) <= C) ->
  exists p w, se3_evaluate K x t = Ok (Some p) /\ se3_evaluate_derivative K x t 1 = Ok (Some w) /\
    vnorm (HermiteE3.vsub (p_pos p) (f t)) <= B /\ vnorm (HermiteE3.vsub (t_lin w) (v t)) <= C.
Proof.
  intros (p & w & E1 & E2 & B1 & B2). rewrite (translation_evaluate K) in E1. rewrite (translation_velocity K) in E2.
  destruct (se3_evaluate K x t) as [[p'|]| | |]; try discriminate. destruct (se3_evaluate_derivative K x t 1) as [[w'|]| | |]; try discriminate.
  cbn [on_value] in E1, E2. exists p', w'. repeat split; congruence.
Qed.

(** Positions of SE3 curves likewise, whatever the orientations. *)
Theorem C112_se3_fit : forall K g (c : se3_curve R) A h f v ts vs d0 d1 out,
  length ts = length vs -> (2 <= length ts)%nat -> increasing_times ts -> (g + N.of_nat (length ts) < 2 ^ 64)%N ->
  map p_pos vs = map f ts -> t_lin d0 = v (at_knot ts 0) -> t_lin d1 = v (at_knot ts (length ts - 1)) ->
  moves f v (at_knot ts 0) (at_knot ts (length ts - 1)) -> changes A v (at_knot ts 0) (at_knot ts (length ts - 1)) -> gaps h ts ->
  exists g' c' ks, se3_fit_with_derivatives K g c ts vs d0 d1 out = Ok (g', c', ks) /\
    (forall t, at_knot ts 0 <= t <= at_knot ts (length ts - 1) ->
      exists p w, se3_evaluate K c' t = Ok (Some p) /\ se3_evaluate_derivative K c' t 1 = Ok (Some w) /\
        vnorm (HermiteE3.vsub (p_pos p) (f t)) <= 9 / 32 * A * (h * h) /\ vnorm (HermiteE3.vsub (t_lin w) (v t)) <= 3 / 4 * A * h) /\
    (forall a J t, moves v a (at_knot ts 0) (at_knot ts (length ts - 1)) -> changes J a (at_knot ts 0) (at_knot ts (length ts - 1)) -> regular h ts ->
      at_knot ts 0 <= t <= at_knot ts (length ts - 1) ->
      exists p w, se3_evaluate K c' t = Ok (Some p) /\ se3_evaluate_derivative K c' t 1 = Ok (Some w) /\
        vnorm (HermiteE3.vsub (p_pos p) (f t)) <= 3 / 32 * J * (h * h * h) /\ vnorm (HermiteE3.vsub (t_lin w) (v t)) <= 3 / 10 * J * (h * h)).
Proof.
  intros K g c A h f v ts vs d0 d1 out Hl H2 Hi Hg Hp D0 D1 Hm Ha Hh.
  destruct (se3_fit_all K g c ts vs d0 d1 out Hl Hi Hg) as (x & ks & E & Hx & _ & Hcon & _).
  pose proof (se3_samples K f v ts vs d0 d1 x Hl Hp D0 D1 Hcon) as Hs. pose proof (map_consistent _ _ Hx : consistent (translation x)) as Ht.
  do 3 eexists. split; [exact E|]. split.
  - intros t Hr. apply se3_bounds. now apply (curve_first f v ts (translation x) Ht H2 Hi Hs Hm).
  - intros a J t Hv Hj Hreg Hr. apply se3_bounds. now apply (curve_second f v ts (translation x) Ht H2 Hi Hs Hm a).
Qed.

Definition falling (A : R) (t : R) : vec3 R := V3 (A / 2 * (t * t)) 0 0.
Definition falling_velocity (A : R) (t : R) : vec3 R := V3 (A * t) 0 0.

(** At irregular times velocities are only good to the first order, even if the acceleration is constant. *)
Theorem C112_irregular_refuted : forall A h, 0 < A -> 0 < h ->
  let ts := [- h / 2; 0; h] in
  increasing_times ts /\ gaps h ts /\
  exists g c ks w, e3_fit_with_derivatives true 0 e3_new ts (map (falling A) ts) (falling_velocity A (- h / 2)) (falling_velocity A h) [] = Ok (g, c, ks) /\
    e3_evaluate_derivative c 0 1 = Ok (Some w) /\ vnorm (HermiteE3.vsub w (falling_velocity A 0)) = A * h / 4.
Proof.
  intros A h PA Ph ts.
  assert (Hi : increasing_times ts) by (intros [|[|i]] Li; unfold at_knot, ts in *; cbn in *; [lra|lra|lia]).
  assert (Hg : gaps h ts) by (intros [|[|i]] Li; unfold at_knot, ts in *; cbn in *; [lra|lra|lia]).
  split; [exact Hi|]. split; [exact Hg|].
  destruct (e3_fit_spec true 0 e3_new ts (map (falling A) ts) (falling_velocity A (- h / 2)) (falling_velocity A h) [] consistent_empty eq_refl eq_refl Hi eq_refl)
    as (x & ks & E & _ & [Hx _] & Hcon).
  exists (0 + N.of_nat (length ts))%N, x, ([] ++ ks). eexists. split; [exact E|].
  assert (L1 : (1 < length ts)%nat) by (cbn; lia). assert (L2 : (2 < length ts)%nat) by (cbn; lia).
  destruct (nth_adjacent _ _ _ _ (fitted_nth x ts _ _ _ 1 Hcon L1) (fitted_nth x ts _ _ _ 2 Hcon L2)) as (u & w & Ec & _).
  assert (K1 : at_knot ts 1 = 0) by reflexivity. assert (K2 : at_knot ts 2 = h) by reflexivity. rewrite K1, K2 in Ec.
  split; [exact (velocity_segment x u _ _ _ _ w 0 Hx Ec ltac:(lra))|].
  match goal with |- vnorm ?e = _ => assert (e = V3 (A * h / 4) 0 0) as -> end.
  - apply vec3_ext. intros a. 
    match goal with |- coord a (HermiteE3.vsub (e3_segment_velocity ?p ?q ?k ?l ?s) ?z) = _ =>
      replace (coord a (HermiteE3.vsub (e3_segment_velocity p q k l s) z)) with (coord a (e3_segment_velocity p q k l s) - coord a z)
        by (generalize (e3_segment_velocity p q k l s), z; intros [? ? ?] [? ? ?]; destruct a; cbn; numR; ring) end.
    rewrite coord_velocity. unfold hvel, falling_velocity, falling, fit_velocity, ts. destruct a; cbn; numR; field; repeat split; lra.
  - unfold vnorm. cbn [HermiteE3.vx vy vz]. replace (_ + _ + _) with (A * h / 4 * (A * h / 4)) by ring. apply sqrt_square.
    assert (0 < A * h) by now apply Rmult_lt_0_compat. lra.
Qed.

(** ** Instances of the hypotheses *)

Lemma falling_moves A lo hi : moves (falling A) (falling_velocity A) lo hi.
Proof. intros a t _. destruct a; cbn; auto_derive; auto; field. Qed.
Lemma falling_moves2 A lo hi : moves (falling_velocity A) (fun _ => V3 A 0 0) lo hi.
Proof. intros a t _. destruct a; cbn; auto_derive; auto; ring. Qed.
Lemma falling_changes A lo hi : 0 <= A -> changes A (falling_velocity A) lo hi.
Proof.
  intros P s t _ _. unfold vnorm, falling_velocity. cbn. numR. replace (_ + _ + _) with (Rsqr (A * (s - t))) by (unfold Rsqr; ring).
  rewrite sqrt_Rsqr_abs, Rabs_mult, Rabs_pos_eq by exact P. lra.
Qed.

(** A body in free fall, at irregular and at regular times. *)
Example C112_example : consistent (e3_new : e3_curve R) /\ e3_size (e3_new : e3_curve R) = 0%nat /\ (2 <= length ts4)%nat /\ increasing_times ts4 /\
  (0 + N.of_nat (length ts4) < 2 ^ 64)%N /\ moves (falling 10) (falling_velocity 10) (at_knot ts4 0) (at_knot ts4 (length ts4 - 1)) /\
  changes 10 (falling_velocity 10) (at_knot ts4 0) (at_knot ts4 (length ts4 - 1)) /\ (exists h, gaps h ts4) /\
  exists vs d0 d1, length ts4 = length vs /\ map p_pos vs = map (falling 10) ts4 /\ t_lin d0 = falling_velocity 10 (at_knot ts4 0) /\
    t_lin d1 = falling_velocity 10 (at_knot ts4 (length ts4 - 1)).
Proof.
  split; [apply consistent_empty|]. split; [reflexivity|]. split; [cbn; lia|]. split; [exact ts4_increasing|]. split; [reflexivity|].
  split; [apply falling_moves|]. split; [apply falling_changes; lra|]. split.
  - exists (at_knot ts4 3 - at_knot ts4 0). intros i Li. pose proof (ts4_increasing 0%nat ltac:(cbn; lia)). pose proof (ts4_increasing 1%nat ltac:(cbn; lia)).
    pose proof (ts4_increasing 2%nat ltac:(cbn; lia)). destruct i as [|[|[|i]]]; cbn in Li; [lra|lra|lra|lia].
  - exists (map (fun t => Pose (falling 10 t) qone) ts4), (Twist (falling_velocity 10 (at_knot ts4 0)) vzero), (Twist (falling_velocity 10 (at_knot ts4 (length ts4 - 1))) vzero).
    split; [now rewrite map_length|]. split; [rewrite map_map; reflexivity|]. split; reflexivity.
Qed.

Example C112_regular_example : let ts := [0; 1; 2] in (2 <= length ts)%nat /\ increasing_times ts /\ regular 1 ts /\
  moves (falling 10) (falling_velocity 10) 0 2 /\ moves (falling_velocity 10) (fun _ => V3 10 0 0) 0 2 /\ changes 0 (fun _ => V3 10 0 0) 0 2.
Proof.
  intros ts. split; [cbn; lia|]. split; [intros [|[|i]] Li; unfold at_knot, ts in *; cbn in *; [lra|lra|lia]|].
  split; [intros [|[|i]] Li; unfold at_knot, ts in *; cbn in *; [lra|lra|lia]|]. split; [apply falling_moves|]. split; [apply falling_moves2|].
  intros s t _ _. unfold vnorm. cbn. numR. replace (_ + _ + _) with 0 by ring. rewrite sqrt_0. lra.
Qed.
