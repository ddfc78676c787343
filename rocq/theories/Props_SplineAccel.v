(** * C116: accelerations of splines through samples of a smooth function *)

From Coquelicot Require Import Coquelicot.
From Coq Require Import List Bool Arith NArith ZArith Reals Lra Lia Psatz.
From Verif Require Import Base Num TimeInst Spline SplineSpec LinSpec SplineProofs
  Container ContainerSpec ContainerProofs SetDataSpec SetDataSys SetDataProofs SetDataExist SetDataTraj SetDataTop
  SetDataUnique SetDataEnergy Props_SetData SplineCurves Props_SplineCurves HermiteE3Proofs Props_Hermite2 Props_Sampled ColPiv Props_ColPiv
  Props_SplineRate.
Import ListNotations.
Local Open Scope R_scope.

(** ** What a function four times differentiable satisfies *)

Section Smooth.
Variables (f f1 f2 f3 f4 : R -> R) (lo hi M : R).
Hypothesis D1 : derives f f1 lo hi.
Hypothesis D2 : derives f1 f2 lo hi.
Hypothesis D3 : derives f2 f3 lo hi.
Hypothesis D4 : derives f3 f4 lo hi.
Hypothesis HM : forall t, lo <= t <= hi -> Rabs (f4 t) <= M.

Lemma between_in s t z : lo <= s <= hi -> lo <= t <= hi -> Rmin t s <= z <= Rmax t s -> lo <= z <= hi.
Proof.
  intros Hs Ht [Z1 Z2]. split; [eapply Rle_trans; [|exact Z1]; apply Rmin_glb; lra|eapply Rle_trans; [exact Z2|]; apply Rmax_lub; lra].
Qed.

Lemma moment_fourth s t : lo <= s <= hi -> lo <= t <= hi ->
  Rabs ((s - t) * (s - t) * (2 * f2 t + f2 s) - 6 * (f s - f t - f1 t * (s - t))) <= M / 4 * (((s - t) * (s - t)) * ((s - t) * (s - t))).
Proof.
  intros Hs Ht.
  assert (In : forall s z, lo <= s <= hi -> Rmin t s <= z <= Rmax t s -> lo <= z <= hi) by (intros s' z Hs'; now apply between_in).
  assert (I1 := fun z Hz => proj2 (is_derive_Reals f z (f1 z)) (D1 z Hz)).
  assert (I2 := fun z Hz => proj2 (is_derive_Reals f1 z (f2 z)) (D2 z Hz)).
  assert (I3 := fun z Hz => proj2 (is_derive_Reals f2 z (f3 z)) (D3 z Hz)).
  assert (I4 := fun z Hz => proj2 (is_derive_Reals f3 z (f4 z)) (D4 z Hz)).
  set (r0 z := (z - t) * (z - t) * (2 * f2 t + f2 z) - 6 * (f z - f t - f1 t * (z - t))).
  set (r1 z := 2 * (z - t) * (2 * f2 t + f2 z) + (z - t) * (z - t) * f3 z - 6 * (f1 z - f1 t)).
  set (r2 z := 4 * (f2 t - f2 z + (z - t) * f3 z) + (z - t) * (z - t) * f4 z).
  set (w z := f2 t - f2 z + (z - t) * f3 z).
  set (w1 z := (z - t) * f4 z).
  assert (E1 : forall z, lo <= z <= hi -> is_derive r0 z (r1 z)).
  { intros z Hz. unfold r0, r1. pose proof (I1 z Hz) as A1. pose proof (I3 z Hz) as A2. auto_derive; [split; [eexists; exact A2|split; [eexists; exact A1|exact I]]|].
    change (fun x => f x) with f. change (fun x => f2 x) with f2. rewrite (is_derive_unique _ _ _ A1), (is_derive_unique _ _ _ A2). ring. }
  assert (E2 : forall z, lo <= z <= hi -> is_derive r1 z (r2 z)).
  { intros z Hz. unfold r1, r2. pose proof (I2 z Hz) as A1. pose proof (I3 z Hz) as A2. pose proof (I4 z Hz) as A3.
    auto_derive; [repeat split; eexists; eassumption|].
    change (fun x => f1 x) with f1. change (fun x => f2 x) with f2. change (fun x => f3 x) with f3.
    rewrite (is_derive_unique _ _ _ A1), (is_derive_unique _ _ _ A2), (is_derive_unique _ _ _ A3). ring. }
  assert (E3 : forall z, lo <= z <= hi -> is_derive w z (w1 z)).
  { intros z Hz. unfold w, w1. pose proof (I3 z Hz) as A1. pose proof (I4 z Hz) as A2. auto_derive; [repeat split; eexists; eassumption|].
    change (fun x => f2 x) with f2. change (fun x => f3 x) with f3. rewrite (is_derive_unique _ _ _ A1), (is_derive_unique _ _ _ A2). ring. }
  assert (Bw : forall z, lo <= z <= hi -> Rabs (w z) <= M / 2 * Rabs (z - t) ^ 2).
  { intros z Hz. replace (M / 2 * Rabs (z - t) ^ 2) with (M * Rabs (z - t) ^ 2 / INR 2) by (cbn; field).
    apply (bounded_from w w1 t z M 1); [intros x Hx; apply E3; exact (In z x Hz Hx)|unfold w; ring|].
    intros x Hx. unfold w1. rewrite Rabs_mult, pow_1, (Rmult_comm (Rabs (x - t))). apply Rmult_le_compat_r; [apply Rabs_pos|]. apply HM. exact (In z x Hz Hx). }
  assert (B2 : forall z, lo <= z <= hi -> Rabs (r2 z) <= 3 * M * Rabs (z - t) ^ 2).
  { intros z Hz. unfold r2. change (f2 t - f2 z + (z - t) * f3 z) with (w z). eapply Rle_trans; [apply Rabs_triang|].
    rewrite !Rabs_mult, (Rabs_pos_eq 4) by lra. specialize (Bw z Hz). pose proof (HM z Hz) as H4.
    assert (0 <= Rabs (z - t) * Rabs (z - t)) as PP by (apply Rmult_le_pos; apply Rabs_pos).
    pose proof (Rmult_le_compat_l _ _ _ PP H4). cbn [pow] in *. lra. }
  assert (B1 : forall z, lo <= z <= hi -> Rabs (r1 z) <= M * Rabs (z - t) ^ 3).
  { intros z Hz. replace (M * Rabs (z - t) ^ 3) with (3 * M * Rabs (z - t) ^ 3 / INR 3) by (cbn; field).
    apply (bounded_from r1 r2 t z (3 * M) 2); [intros x Hx; apply E2; exact (In z x Hz Hx)|unfold r1; ring|]. intros x Hx. apply B2. exact (In z x Hz Hx). }
  change (Rabs (r0 s) <= M / 4 * ((s - t) * (s - t) * ((s - t) * (s - t)))).
  replace (M / 4 * ((s - t) * (s - t) * ((s - t) * (s - t)))) with (M * Rabs (s - t) ^ 4 / INR 4).
  - apply (bounded_from r0 r1 t s M 3); [intros x Hx; apply E1; exact (In s x Hs Hx)|unfold r0; ring|]. intros x Hx. apply B1. exact (In s x Hs Hx).
  - replace (Rabs (s - t) ^ 4) with (Rabs (s - t) ^ 2 * Rabs (s - t) ^ 2) by ring. rewrite pow2_abs. replace (INR 4) with 4 by (cbn; ring). field.
Qed.

Lemma second_taylor s t : lo <= s <= hi -> lo <= t <= hi -> Rabs (f2 s - f2 t - f3 t * (s - t)) <= M / 2 * ((s - t) * (s - t)).
Proof.
  intros Hs Ht.
  assert (In : forall s z, lo <= s <= hi -> Rmin t s <= z <= Rmax t s -> lo <= z <= hi) by (intros s' z Hs'; now apply between_in).
  assert (I3 := fun z Hz => proj2 (is_derive_Reals f2 z (f3 z)) (D3 z Hz)).
  assert (I4 := fun z Hz => proj2 (is_derive_Reals f3 z (f4 z)) (D4 z Hz)).
  set (r0 z := f2 z - f2 t - f3 t * (z - t)). set (r1 z := f3 z - f3 t).
  assert (E1 : forall z, lo <= z <= hi -> is_derive r0 z (r1 z)).
  { intros z Hz. unfold r0, r1. pose proof (I3 z Hz) as A1. auto_derive; [eexists; exact A1|].
    change (fun x => f2 x) with f2. rewrite (is_derive_unique _ _ _ A1). ring. }
  assert (E2 : forall z, lo <= z <= hi -> is_derive r1 z (f4 z)).
  { intros z Hz. unfold r1. pose proof (I4 z Hz) as A1. auto_derive; [eexists; exact A1|].
    change (fun x => f3 x) with f3. rewrite (is_derive_unique _ _ _ A1). ring. }
  assert (B1 : forall z, lo <= z <= hi -> Rabs (r1 z) <= M * Rabs (z - t) ^ 1).
  { intros z Hz. replace (M * Rabs (z - t) ^ 1) with (M * Rabs (z - t) ^ 1 / INR 1) by (cbn; field).
    apply (bounded_from r1 f4 t z M 0); [intros x Hx; apply E2; exact (In z x Hz Hx)|unfold r1; ring|].
    intros x Hx. rewrite pow_O, Rmult_1_r. apply HM. exact (In z x Hz Hx). }
  replace (M / 2 * ((s - t) * (s - t))) with (M * Rabs (s - t) ^ 2 / INR 2) by (rewrite pow2_abs; cbn; field).
  apply (bounded_from r0 r1 t s M 1); [intros x Hx; apply E1; exact (In s x Hs Hx)|unfold r0; ring|]. intros x Hx. apply B1. exact (In s x Hs Hx).
Qed.

(** Linear interpolation of the second derivative. *)
Lemma chord_second a b t : lo <= a -> a < b -> b <= hi -> a <= t <= b ->
  Rabs (f2 a + (f2 b - f2 a) / (b - a) * (t - a) - f2 t) <= M / 8 * ((b - a) * (b - a)).
Proof.
  intros La Lab Lb Ht. pose proof (second_taylor a t ltac:(lra) ltac:(lra)) as A. pose proof (second_taylor b t ltac:(lra) ltac:(lra)) as B.
  set (d := b - a) in *. set (x := (t - a) / d). assert (Pd : 0 < d) by (unfold d; lra).
  assert (Et : t - a = x * d) by (unfold x; field; lra). assert (Eb : b - t = (1 - x) * d) by (replace (b - t) with (d - (t - a)) by (unfold d; ring); rewrite Et; ring).
  assert (X : 0 <= x <= 1) by (split; apply (Rmult_le_reg_r d); lra).
  replace (f2 a + (f2 b - f2 a) / d * (t - a) - f2 t) with ((1 - x) * (f2 a - f2 t - f3 t * (a - t)) + x * (f2 b - f2 t - f3 t * (b - t))).
  2: { replace (a - t) with (- (x * d)) by lra. rewrite Eb, Et. field. lra. }
  eapply Rle_trans; [apply Rabs_triang|]. rewrite !Rabs_mult, (Rabs_pos_eq (1 - x)), (Rabs_pos_eq x) by lra.
  replace ((a - t) * (a - t)) with (x * d * (x * d)) in A by (rewrite <- Et; ring). rewrite Eb in B. 
  pose proof (Rmult_le_compat_l (1 - x) _ _ ltac:(lra) A) as A'. pose proof (Rmult_le_compat_l x _ _ ltac:(lra) B) as B'.
  assert (PM : 0 <= M) by (pose proof (HM a ltac:(lra)); pose proof (Rabs_pos (f4 a)); lra).
  rewrite Eb. assert (0 <= M * ((1 - 2 * x) * (1 - 2 * x)) * (d * d)).
  { apply Rmult_le_pos; [apply Rmult_le_pos; [lra|]|]; apply Rle_0_sqr. }
  lra.
Qed.
End Smooth.

(** ** Diagonal dominance *)

Section Moments.
Variables (n : nat) (T e m : nat -> R) (B h : R).
Hypothesis Hn : (1 <= n)%nat.
Hypothesis HT : forall i, (i < n)%nat -> T i < T (i + 1)%nat <= T i + h.
Hypothesis HB : 0 <= B.
Hypothesis H0 : m 0%nat = 0.
Hypothesis H1 : m n = 0.
Let gap i := T (i + 1)%nat - T i.
Hypothesis Hl : forall i, (i < n)%nat -> Rabs (gap i * (2 * e i + e (i + 1)%nat) + 6 * m i) <= B * gap i.
Hypothesis Hr : forall i, (i < n)%nat -> Rabs (gap i * (e i + 2 * e (i + 1)%nat) - 6 * m (i + 1)%nat) <= B * gap i.

Lemma moments_near i : (i <= n)%nat -> Rabs (e i) <= B.
Proof.
  intros Li. destruct (largest e n) as (j & Lj & Hj). eapply Rle_trans; [apply Hj; exact Li|]. clear i Li.
  assert (K : forall g a b, 0 < g -> Rabs b <= Rabs a -> g * Rabs a <= Rabs (g * (2 * a + b))).
  { intros g a b Pg L. rewrite Rabs_mult, (Rabs_pos_eq g) by lra. apply Rmult_le_compat_l; [lra|].
    pose proof (Rabs_triang_inv (2 * a) (- b)) as Q. rewrite Rabs_Ropp, Rabs_mult, (Rabs_pos_eq 2) in Q by lra. replace (2 * a - - b) with (2 * a + b) in Q by ring. lra. }
  destruct (Nat.eq_dec j 0) as [->|J0].
  - pose proof (Hl 0 ltac:(lia)) as Q. rewrite H0, Rmult_0_r, Rplus_0_r in Q. pose proof (HT 0%nat ltac:(lia)) as P.
    assert (Pg : 0 < gap 0) by (unfold gap; lra). pose proof (K _ _ _ Pg (Hj (0 + 1)%nat ltac:(lia))).
    apply (Rmult_le_reg_l (gap 0)); lra.
  - destruct (Nat.eq_dec j n) as [->|Jn].
    + pose proof (Hr (n - 1) ltac:(lia)) as Q. pose proof (HT (n - 1)%nat ltac:(lia)) as P.
      replace (n - 1 + 1)%nat with n in Q, P by lia. rewrite H1, Rmult_0_r, Rminus_0_r in Q.
      assert (Pg : 0 < gap (n - 1)) by (unfold gap; replace (n - 1 + 1)%nat with n by lia; lra).
      pose proof (K _ _ _ Pg (Hj (n - 1)%nat ltac:(lia))) as V. rewrite (Rplus_comm (e (n - 1)%nat)) in Q.
      apply (Rmult_le_reg_l (gap (n - 1))); lra.
    + pose proof (Hr (j - 1) ltac:(lia)) as Q1. pose proof (Hl j ltac:(lia)) as Q2.
      replace (j - 1 + 1)%nat with j in Q1 by lia.
      assert (P1 : 0 < gap (j - 1)). { unfold gap. pose proof (HT (j - 1)%nat ltac:(lia)). lra. }
      assert (P2 : 0 < gap j). { unfold gap. pose proof (HT j ltac:(lia)). lra. }
      set (g1 := gap (j - 1)) in *. set (g2 := gap j) in *.
      pose proof (Rabs_triang (g1 * (e (j - 1)%nat + 2 * e j) - 6 * m j) (g2 * (2 * e j + e (j + 1)%nat) + 6 * m j)) as W.
      set (g := g1 + g2). set (v := (g1 * e (j - 1)%nat + g2 * e (j + 1)%nat) / g).
      replace (g1 * (e (j - 1)%nat + 2 * e j) - 6 * m j + (g2 * (2 * e j + e (j + 1)%nat) + 6 * m j)) with (g * (2 * e j + v)) in W
        by (unfold v, g; field; lra).
      assert (Lv : Rabs v <= Rabs (e j)).
      { unfold v, Rdiv. rewrite Rabs_mult, (Rabs_pos_eq (/ g)) by (left; apply Rinv_0_lt_compat; unfold g; lra).
        apply (Rmult_le_reg_r g); [unfold g; lra|]. rewrite Rmult_assoc, Rinv_l, Rmult_1_r by (unfold g; lra).
        eapply Rle_trans; [apply Rabs_triang|]. rewrite !Rabs_mult, (Rabs_pos_eq g1), (Rabs_pos_eq g2) by lra.
        pose proof (Rmult_le_compat_l g1 _ _ ltac:(lra) (Hj (j - 1)%nat ltac:(lia))). pose proof (Rmult_le_compat_l g2 _ _ ltac:(lra) (Hj (j + 1)%nat ltac:(lia))).
        unfold g. lra. }
      pose proof (K g _ _ ltac:(unfold g; lra) Lv) as V. apply (Rmult_le_reg_l g); unfold g in *; lra.
Qed.
End Moments.

(** ** What a fit stores *)

Section Fitted.
Variables (knots : list R) (f f1 f2 f3 f4 : R -> R) (segs : list (list R)) (h M : R).
Hypothesis Hv : valid_knots knots (map f knots).
Local Notation D := (diffs knots).
Local Notation n := (length (diffs knots)).
Local Notation T i := (nth i knots 0).
Local Notation first := (nth 0 knots 0).
Local Notation last := (nth (length knots - 1) knots 0).
Hypothesis Hsegs : segments 3 n segs.
Hypothesis Hgood : good 3 n D (map f knots) [f1 first] [f1 last] segs.
Hypothesis Hh : spaced h knots.
Hypothesis D1 : derives f f1 first last.
Hypothesis D2 : derives f1 f2 first last.
Hypothesis D3 : derives f2 f3 first last.
Hypothesis D4 : derives f3 f4 first last.
Hypothesis HM : forall t, first <= t <= last -> Rabs (f4 t) <= M.
Local Notation c := (holding (splines_of segs D)).
Local Notation slope i := (slope_at knots segs i).

(** Not in the source: the acceleration at a knot. *)
Definition acceleration_of (i : nat) : R := acceleration 3 c (T i - first).

Lemma accel_piece i : (i < n)%nat -> let d := T (i + 1) - T i in
  (forall t, T i <= t <= T (i + 1) ->
     acceleration 3 c (t - first) = acceleration_of i + (acceleration_of (i + 1) - acceleration_of i) / d * (t - T i)) /\
  d * d * (2 * acceleration_of i + acceleration_of (i + 1)) = 6 * (f (T (i + 1)) - f (T i) - slope i * d) /\
  d * d * (acceleration_of i + 2 * acceleration_of (i + 1)) = 6 * (slope (i + 1) * d - (f (T (i + 1)) - f (T i))).
Proof.
  intros L. cbv zeta. destruct (fit_piece knots f f1 segs Hv Hsegs Hgood i L) as (c2 & c3 & P & A & B). cbv zeta in *.
  destruct (fit_n knots f Hv) as (En & N1 & Ns).
  assert (O : T i < T (i + 1)) by (apply Hv; lia).
  destruct (P (T i) ltac:(lra)) as (_ & _ & C0). destruct (P (T (i + 1)) ltac:(lra)) as (_ & _ & C1).
  fold (acceleration_of i) in C0. fold (acceleration_of (i + 1)) in C1. rewrite C0, C1, A, B. split; [|split; ring].
  intros t Ht. destruct (P t Ht) as (_ & _ & ->). field. lra.
Qed.

Lemma accel_knot i : (i <= n)%nat -> Rabs (acceleration_of i - f2 (T i)) <= M / 4 * (h * h).
Proof.
  intros Li. destruct (fit_n knots f Hv) as (En & N1 & Ns). pose proof (fit_h knots f h Hv Hh) as Ph.
  assert (PM : 0 <= M). { pose proof (fit_range knots f Hv 0 ltac:(lia)) as Q. pose proof (HM first Q). pose proof (Rabs_pos (f4 first)). lra. }
  assert (Sh : forall r d, 0 < d -> d <= h -> Rabs (d * r) <= M / 4 * (d * d * (d * d)) -> Rabs r <= M / 4 * (h * h) * d).
  { intros r d Pd Ld Hr. rewrite Rabs_mult, (Rabs_pos_eq d) in Hr by lra. apply (Rmult_le_reg_l d); [exact Pd|]. eapply Rle_trans; [exact Hr|].
    replace (d * (M / 4 * (h * h) * d)) with (M / 4 * (d * d * (h * h))) by ring. apply Rmult_le_compat_l; [lra|].
    apply Rmult_le_compat_l; [nra|]. apply Rmult_le_compat; lra. }
  apply (moments_near n (fun i => T i) (fun i => acceleration_of i - f2 (T i)) (fun i => slope i - f1 (T i)) (M / 4 * (h * h)) h N1); try exact Li.
  - intros k Lk. pose proof (Hh k ltac:(lia)). assert (T k < T (k + 1)) by (apply Hv; lia). lra.
  - destruct (fit_ends knots f f1 segs Hv Hsegs Hgood) as [-> _]. ring.
  - destruct (fit_ends knots f f1 segs Hv Hsegs Hgood) as [_ ->]. ring.
  - intros k Lk. cbn beta. assert (O : T k < T (k + 1)) by (apply Hv; lia). pose proof (Hh k ltac:(lia)) as G.
    pose proof (moment_fourth f f1 f2 f3 f4 first last M D1 D2 D3 D4 HM _ _ (fit_range knots f Hv (k + 1) ltac:(lia)) (fit_range knots f Hv k ltac:(lia))) as X.
    destruct (accel_piece k Lk) as (_ & A & _). cbv zeta in A. set (d := T (k + 1) - T k) in *.
    apply Sh; [unfold d; lra|exact G|]. rewrite <- Rabs_Ropp. rewrite <- Rabs_Ropp in X. eapply Rle_trans; [right|rewrite Rabs_Ropp in X; exact X].
    rewrite Rabs_Ropp. rewrite <- (Rabs_Ropp (d * d * _ - _)). f_equal.
    match goal with |- _ = - (?u - ?v) => transitivity (d * d * (2 * acceleration_of k + acceleration_of (k + 1)) - u + 6 * d * (slope k - f1 (T k))); [ring|rewrite A; ring] end.
  - intros k Lk. cbn beta. assert (O : T k < T (k + 1)) by (apply Hv; lia). pose proof (Hh k ltac:(lia)) as G.
    pose proof (moment_fourth f f1 f2 f3 f4 first last M D1 D2 D3 D4 HM _ _ (fit_range knots f Hv k ltac:(lia)) (fit_range knots f Hv (k + 1) ltac:(lia))) as X.
    destruct (accel_piece k Lk) as (_ & _ & A). cbv zeta in A. set (d := T (k + 1) - T k) in *.
    replace (T k - T (k + 1)) with (- d) in X by (unfold d; ring). replace (- d * - d) with (d * d) in X by ring.
    apply Sh; [unfold d; lra|exact G|]. eapply Rle_trans; [right|exact X].
    rewrite <- (Rabs_Ropp (d * d * _ - _)). f_equal.
    match goal with |- _ = - (?u - ?v) => transitivity (d * d * (acceleration_of k + 2 * acceleration_of (k + 1)) - u - 6 * d * (slope (k + 1) - f1 (T (k + 1)))); [ring|rewrite A; ring] end.
Qed.

Lemma accel_near t : first <= t <= last -> Rabs (acceleration 3 c (t - first) - f2 t) <= 3 / 8 * M * (h * h).
Proof.
  intros Ht. destruct (fit_n knots f Hv) as (En & N1 & Ns). destruct (fit_which knots f Hv t Ht) as (i & Li & Hi).
  assert (O : T i < T (i + 1)) by (apply Hv; lia). pose proof (Hh i ltac:(lia)) as G.
  assert (PM : 0 <= M). { pose proof (HM t Ht). pose proof (Rabs_pos (f4 t)). lra. }
  pose proof (fit_range knots f Hv i ltac:(lia)) as R0. pose proof (fit_range knots f Hv (i + 1) ltac:(lia)) as R1.
  pose proof (chord_second f2 f3 f4 first last M D3 D4 HM (T i) (T (i + 1)) t ltac:(lra) O ltac:(lra) Hi) as C.
  destruct (accel_piece i Li) as (P & _). cbv zeta in P. rewrite (P t Hi).
  pose proof (accel_knot i ltac:(lia)) as A0. pose proof (accel_knot (i + 1) ltac:(lia)) as A1.
  set (d := T (i + 1) - T i) in *. set (x := (t - T i) / d). assert (Pd : 0 < d) by (unfold d; lra).
  assert (Et : t - T i = x * d) by (unfold x; field; lra).
  assert (X : 0 <= x <= 1) by (split; apply (Rmult_le_reg_r d); unfold d in *; lra).
  match goal with |- Rabs ?z <= _ => replace z with ((1 - x) * (acceleration_of i - f2 (T i)) + x * (acceleration_of (i + 1) - f2 (T (i + 1))) + (f2 (T i) + (f2 (T (i + 1)) - f2 (T i)) / d * (t - T i) - f2 t)) end.
  2: { rewrite Et. field. lra. }
  eapply Rle_trans; [apply Rabs_triang|]. eapply Rle_trans; [apply Rplus_le_compat; [apply Rabs_triang|exact C]|].
  rewrite !Rabs_mult, (Rabs_pos_eq (1 - x)), (Rabs_pos_eq x) by lra.
  pose proof (Rmult_le_compat_l (1 - x) _ _ ltac:(lra) A0). pose proof (Rmult_le_compat_l x _ _ ltac:(lra) A1).
  assert (d * d <= h * h) by (apply Rmult_le_compat; lra).
  assert (M / 8 * (d * d) <= M / 8 * (h * h)) by (apply Rmult_le_compat_l; lra). lra.
Qed.

Lemma accel_defined t : first <= t <= last -> get_acceleration_at_time 3 c (t - first) = Ok (acceleration 3 c (t - first)).
Proof.
  intros Ht. destruct (fit_n knots f Hv) as (En & N1 & Ns). unfold acceleration. destruct (Req_dec t last) as [E|E].
  - destruct (last_end 3 D segs ltac:(lia) N1 Ns (fit_positive knots f Hv) Hsegs (t - first)) as (_ & _ & ->); [|auto].
    rewrite (fit_start knots f segs Hv) by lia. rewrite E. replace n with (length knots - 1)%nat by lia. reflexivity.
  - destruct (traj_charge 3 D segs ltac:(lia) N1 Ns (t - first)) as (i & L & Hi).
    { rewrite (fit_start knots f segs Hv) by lia. replace n with (length knots - 1)%nat by lia. lra. }
    destruct (half_open 3 D segs ltac:(lia) N1 Ns (fit_positive knots f Hv) Hsegs i (t - first) L Hi) as (_ & _ & ->). auto.
Qed.
End Fitted.

(** ** C116 *)

(** The accelerations of a container of order 3 set to samples of a function at times no more than h
    apart and its derivatives at the ends are those of the function up to 3/8 M h^2, where M bounds the
    fourth derivative; at the knots up to M h^2 / 4. The times may be spaced irregularly, and nothing is
    assumed of the second derivative at the ends. *)
Theorem C116_container : forall (solve : solver R) c knots f f1 f2 f3 f4 M h,
  exact_solver solve -> valid_knots knots (map f knots) -> spaced h knots ->
  derives f f1 (nth 0 knots 0) (nth (length knots - 1) knots 0) -> derives f1 f2 (nth 0 knots 0) (nth (length knots - 1) knots 0) ->
  derives f2 f3 (nth 0 knots 0) (nth (length knots - 1) knots 0) -> derives f3 f4 (nth 0 knots 0) (nth (length knots - 1) knots 0) ->
  (forall t, nth 0 knots 0 <= t <= nth (length knots - 1) knots 0 -> Rabs (f4 t) <= M) ->
  exists r, set_data4 solve 3 c knots (map f knots) (f1 (nth 0 knots 0)) (f1 (nth (length knots - 1) knots 0)) = Ok (true, r) /\
    (forall t, nth 0 knots 0 <= t <= nth (length knots - 1) knots 0 ->
      exists a, get_acceleration_at_time 3 r (t - nth 0 knots 0) = Ok a /\ Rabs (a - f2 t) <= 3 / 8 * M * h ^ 2) /\
    (forall t, In t knots -> exists a, get_acceleration_at_time 3 r (t - nth 0 knots 0) = Ok a /\ Rabs (a - f2 t) <= M / 4 * h ^ 2).
Proof.
  intros solve c knots f f1 f2 f3 f4 M h Hs Hv Hh D1 D2 D3 D4 HM.
  destruct (set_data4_stores solve 3 c knots (map f knots) (f1 (nth 0 knots 0)) (f1 (nth (length knots - 1) knots 0)) Hs ltac:(lia) Hv) as (segs & Sg & G & E).
  eexists. split; [exact E|]. replace (h ^ 2) with (h * h) by ring. split.
  - intros t Ht. eexists. split; [exact (accel_defined knots f segs Hv Sg t Ht)|].
    exact (accel_near knots f f1 f2 f3 f4 segs h M Hv Sg G Hh D1 D2 D3 D4 HM t Ht).
  - intros t Ht. destruct (In_nth _ _ 0 Ht) as (i & Li & Ei). pose proof (diffs_length knots) as Ld.
    assert (Hi : (i <= length (diffs knots))%nat) by lia. pose proof (fit_range knots f Hv i Hi) as Hr. rewrite Ei in Hr.
    eexists. split; [exact (accel_defined knots f segs Hv Sg t Hr)|].
    pose proof (accel_knot knots f f1 f2 f3 f4 segs h M Hv Sg G Hh D1 D2 D3 D4 HM i Hi) as Z. unfold acceleration_of in Z. now rewrite Ei in Z.
Qed.

(** The same for scalar curves of order 3: the second derivative evaluateDerivative returns, at absolute
    times; the accelerations given at the ends are not used. *)
Theorem C116_curve : forall (solve : solver R) sc times f f1 f2 f3 f4 a0 aT M h,
  exact_solver solve -> valid_knots times (map f times) -> spaced h times ->
  derives f f1 (nth 0 times 0) (nth (length times - 1) times 0) -> derives f1 f2 (nth 0 times 0) (nth (length times - 1) times 0) ->
  derives f2 f3 (nth 0 times 0) (nth (length times - 1) times 0) -> derives f3 f4 (nth 0 times 0) (nth (length times - 1) times 0) ->
  (forall t, nth 0 times 0 <= t <= nth (length times - 1) times 0 -> Rabs (f4 t) <= M) ->
  exists sc', sc_fit_boundary solve 3 sc times (map f times) (f1 (nth 0 times 0)) a0 (f1 (nth (length times - 1) times 0)) aT = Ok sc' /\
    (forall t old, nth 0 times 0 <= t <= nth (length times - 1) times 0 ->
      exists a, sc_evaluate_derivative 3 sc' old t 2 = Ok (true, a) /\ Rabs (a - f2 t) <= 3 / 8 * M * h ^ 2) /\
    (forall t old, In t times -> exists a, sc_evaluate_derivative 3 sc' old t 2 = Ok (true, a) /\ Rabs (a - f2 t) <= M / 4 * h ^ 2).
Proof.
  intros solve sc times f f1 f2 f3 f4 a0 aT M h Hs Hv Hh D1 D2 D3 D4 HM.
  destruct (C116_container solve (sc_container sc) times f f1 f2 f3 f4 M h Hs Hv Hh D1 D2 D3 D4 HM) as (r & E & A & K).
  pose proof Hv as (H2 & _ & _ & Hsm).
  rewrite <- (set_data6_drops solve 3 (sc_container sc) times (map f times) (f1 (nth 0 times 0)) a0 (f1 (nth (length times - 1) times 0)) aT) in E by (try lia; exact Hsm).
  eexists. split; [apply (fit_container _ _ _ _ _ _ _ _ _ true _ (valid_nonempty _ _ Hv) E)|].
  split; intros t old Ht; [destruct (A t Ht) as (a & P & B)|destruct (K t Ht) as (a & P & B)]; exists a;
    (split; [|exact B]); unfold sc_evaluate_derivative; cbn [sc_container sc_min Z.eqb Pos.eqb]; numR; rewrite P; reflexivity.
Qed.

(** Samples of the sine at irregular times. *)
Example C116_example : exists r, set_data4 pivoted 3 c_new sine_times (map sin sine_times) (cos 0) (cos 2) = Ok (true, r) /\
  forall t, 0 <= t <= 2 -> exists a, get_acceleration_at_time 3 r t = Ok a /\ Rabs (a + sin t) <= 3 / 8.
Proof.
  destruct sine_valid as [Hv Hh]. destruct (sine_derives 0 2) as (D1 & D2 & D3 & D4).
  destruct (C116_container pivoted c_new sine_times sin cos (fun t => - sin t) (fun t => - cos t) sin 1 1 (proj1 C100_solver) Hv Hh D1 D2 D3 D4) as (r & E & A & _).
  { intros t _. apply Rabs_le. pose proof (SIN_bound t). lra. }
  exists r. split; [exact E|]. intros t Ht. destruct (A t Ht) as (a & P & X). exists a.
  cbn [nth sine_times] in P. rewrite Rminus_0_r in P. split; [exact P|]. replace (a + sin t) with (a - - sin t) by ring. lra.
Qed.
