(** * C113: splines through samples of a smooth function *)

From Coquelicot Require Import Coquelicot.
From Coq Require Import List Bool Arith NArith ZArith Reals Lra Lia Psatz.
From Verif Require Import Base Num TimeInst Spline SplineSpec LinSpec SplineProofs
  Container ContainerSpec ContainerProofs SetDataSpec SetDataSys SetDataProofs SetDataExist SetDataTraj SetDataTop
  SetDataUnique SetDataEnergy Props_SetData SplineCurves Props_SplineCurves HermiteE3Proofs Props_Hermite2 Props_Sampled ColPiv Props_ColPiv.
Import ListNotations.
Local Open Scope R_scope.

(** ** Specification *)

(** [g] is the derivative of [f] between [lo] and [hi]. *)
Definition derives (f g : R -> R) (lo hi : R) : Prop := forall t, lo <= t <= hi -> derivable_pt_lim f t (g t).
(** [f] changes by at most [A] per second. *)
Definition steady (A : R) (f : R -> R) (lo hi : R) : Prop :=
  forall s t, lo <= s <= hi -> lo <= t <= hi -> Rabs (f s - f t) <= A * Rabs (s - t).
(** Neighbouring knots are at most [h] apart. *)
Definition spaced (h : R) (knots : list R) : Prop := forall i, (i + 1 < length knots)%nat -> nth (i + 1) knots 0 - nth i knots 0 <= h.

(** ** Zeros of derivatives *)

Lemma rolle (f g : R -> R) a b : a < b -> derives f g a b -> f a = f b -> exists c, a < c < b /\ g c = 0.
Proof.
  intros L D E. destruct (MVT_cor2 f g a b L D) as (c & F & Hc). exists c. split; [exact Hc|].
  assert (g c * (b - a) = 0) as Z by lra. apply Rmult_integral in Z as [Z|Z]; [exact Z|lra].
Qed.

Lemma derives_in f g lo hi a b : derives f g lo hi -> lo <= a -> b <= hi -> derives f g a b.
Proof. intros D A B t Ht. apply D. lra. Qed.

(** A function with four zeros: its third derivative has one. *)
Lemma four_zeros (f f1 f2 f3 : R -> R) z1 z2 z3 z4 : z1 < z2 -> z2 < z3 -> z3 < z4 ->
  derives f f1 z1 z4 -> derives f1 f2 z1 z4 -> derives f2 f3 z1 z4 -> f z1 = 0 -> f z2 = 0 -> f z3 = 0 -> f z4 = 0 ->
  exists c, z1 < c < z4 /\ f3 c = 0.
Proof.
  intros L1 L2 L3 D1 D2 D3 E1 E2 E3 E4.
  destruct (rolle f f1 z1 z2 L1) as (a1 & A1 & F1); [eapply derives_in; eauto; lra|lra|].
  destruct (rolle f f1 z2 z3 L2) as (a2 & A2 & F2); [eapply derives_in; eauto; lra|lra|].
  destruct (rolle f f1 z3 z4 L3) as (a3 & A3 & F3); [eapply derives_in; eauto; lra|lra|].
  destruct (rolle f1 f2 a1 a2 ltac:(lra)) as (b1 & B1 & G1); [eapply derives_in; eauto; lra|lra|].
  destruct (rolle f1 f2 a2 a3 ltac:(lra)) as (b2 & B2 & G2); [eapply derives_in; eauto; lra|lra|].
  destruct (rolle f2 f3 b1 b2 ltac:(lra)) as (c & C & G); [eapply derives_in; eauto; lra|lra|].
  exists c. split; [lra|exact G].
Qed.

(** ** One segment with exact velocities *)

Section Exact.
Variables (f f1 f2 f3 f4 : R -> R) (a b M : R).
Hypothesis Hab : a < b.
Hypothesis D1 : derives f f1 a b.
Hypothesis D2 : derives f1 f2 a b.
Hypothesis D3 : derives f2 f3 a b.
Hypothesis D4 : derives f3 f4 a b.
Hypothesis HM : forall t, a <= t <= b -> Rabs (f4 t) <= M.

Let d := b - a.
Let k2 := (3 * ((f b - f a) / d) - 2 * f1 a - f1 b) / d.
Let k3 := (f1 a + f1 b - 2 * ((f b - f a) / d)) / (d * d).
Let H s := f a + f1 a * (s - a) + k2 * ((s - a) * (s - a)) + k3 * ((s - a) * (s - a) * (s - a)).
Let H1 s := f1 a + 2 * k2 * (s - a) + 3 * k3 * ((s - a) * (s - a)).

Lemma hval_H t : hval a b (f a) (f1 a) (f b) (f1 b) t = H t.
Proof. unfold hval, H, k2, k3, d. cbv zeta. field. lra. Qed.

Lemma hvel_H t : hvel a b (f a) (f1 a) (f b) (f1 b) t = H1 t.
Proof. unfold hvel, H1, k2, k3, d. cbv zeta. field. lra. Qed.

Lemma H_b : H b = f b.
Proof. unfold H, k2, k3. fold d. field. unfold d. lra. Qed.

Lemma H1_b : H1 b = f1 b.
Proof. unfold H1, k2, k3. fold d. field. unfold d. lra. Qed.

Lemma lim_is (g : R -> R) t l : is_derive g t l -> derivable_pt_lim g t l.
Proof. apply is_derive_Reals. Qed.

Ltac minus_poly D := let y := fresh "y" in let Hy := fresh "Hy" in intros y Hy;
  match goal with |- derivable_pt_lim (fun s => ?g s - @?p s) y (?g' y - ?q) =>
    apply (derivable_pt_lim_minus g p); [apply (D y Hy)|apply lim_is; auto_derive; [exact I|]] end.

Lemma exact_value t : a <= t <= b -> Rabs (hval a b (f a) (f1 a) (f b) (f1 b) t - f t) <= M * (((t - a) * (b - t)) * ((t - a) * (b - t)) / 24).
Proof.
  intros Ht. rewrite hval_H.
  destruct (Req_dec t a) as [->|Na].
  { replace (H a - f a) with 0 by (unfold H; ring). rewrite Rabs_R0. replace (a - a) with 0 by ring.
    replace (M * _) with 0 by field. lra. }
  destruct (Req_dec t b) as [->|Nb].
  { rewrite H_b. replace (f b - f b) with 0 by ring. rewrite Rabs_R0. replace (b - b) with 0 by ring.
    replace (M * _) with 0 by field. lra. }
  set (w s := ((s - a) * (b - s)) * ((s - a) * (b - s))).
  assert (Pw : 0 < w t) by (unfold w; assert (0 < (t - a) * (b - t)) by (apply Rmult_lt_0_compat; lra); nra).
  set (kap := (f t - H t) / w t).
  set (g s := f s - (H s + kap * w s)).
  set (w1 s := 2 * ((s - a) * (b - s)) * (a + b - 2 * s)).
  set (w2 s := 2 * ((a + b - 2 * s) * (a + b - 2 * s)) - 4 * ((s - a) * (b - s))).
  set (w3 s := - 12 * (a + b - 2 * s)).
  set (g1 s := f1 s - (H1 s + kap * w1 s)).
  set (g2 s := f2 s - (2 * k2 + 6 * k3 * (s - a) + kap * w2 s)).
  set (g3 s := f3 s - (6 * k3 + kap * w3 s)).
  set (g4 s := f4 s - kap * 24).
  assert (G1 : derives g g1 a b) by (unfold g, g1, H, H1, w, w1; minus_poly D1; ring).
  assert (G2 : derives g1 g2 a b) by (unfold g1, g2, H1, w1, w2; minus_poly D2; ring).
  assert (G3 : derives g2 g3 a b) by (unfold g2, g3, w2, w3; minus_poly D3; ring).
  assert (G4 : derives g3 g4 a b) by (unfold g3, g4, w3; minus_poly D4; ring).
  assert (Za : g a = 0) by (unfold g, H, w; ring).
  assert (Zb : g b = 0) by (unfold g; rewrite H_b; unfold w; ring).
  assert (Zt : g t = 0) by (unfold g, kap; field; lra).
  assert (Ya : g1 a = 0) by (unfold g1, H1, w1; ring).
  assert (Yb : g1 b = 0) by (unfold g1; rewrite H1_b; unfold w1; ring).
  destruct (rolle g g1 a t ltac:(lra)) as (c1 & C1 & E1); [eapply derives_in; eauto; lra|lra|].
  destruct (rolle g g1 t b ltac:(lra)) as (c2 & C2 & E2); [eapply derives_in; eauto; lra|lra|].
  destruct (four_zeros g1 g2 g3 g4 a c1 c2 b) as (c & C & E); auto; try lra.
  assert (kap = f4 c / 24) as Ek by (unfold g4 in E; lra).
  assert (H t - f t = - (f4 c) * (w t / 24)) as ->.
  { replace (H t - f t) with (- (kap * w t)) by (unfold kap; field; lra). rewrite Ek. field. }
  rewrite Rabs_mult, Rabs_Ropp, (Rabs_pos_eq (w t / 24)) by lra.
  change (((t - a) * (b - t)) * ((t - a) * (b - t))) with (w t).
  apply Rmult_le_compat_r; [lra|]. apply HM. lra.
Qed.

(** The velocity: it is right at both ends and once in between. *)
Lemma exact_velocity t : a <= t <= b -> Rabs (hvel a b (f a) (f1 a) (f b) (f1 b) t - f1 t) <= M * (2 / 81 * (d * d * d)).
Proof.
  intros Ht. rewrite hvel_H. assert (Pd : 0 < d) by (unfold d; lra).
  assert (PM : 0 <= M) by (eapply Rle_trans; [apply Rabs_pos|apply (HM a); lra]).
  assert (PB : 0 <= M * (2 / 81 * (d * d * d))).
  { apply Rmult_le_pos; [exact PM|]. apply Rmult_le_pos; [lra|]. apply Rmult_le_pos; [apply Rmult_le_pos|]; lra. }
  assert (Z : forall y, y = 0 -> Rabs y <= M * (2 / 81 * (d * d * d))) by (intros y ->; rewrite Rabs_R0; exact PB).
  set (g s := f s - H s). set (g1 s := f1 s - H1 s). set (g2 s := f2 s - (2 * k2 + 6 * k3 * (s - a))).
  set (g3 s := f3 s - 6 * k3).
  assert (G1 : derives g g1 a b) by (unfold g, g1, H, H1; minus_poly D1; ring).
  assert (Za : g a = 0) by (unfold g, H; ring).
  assert (Zb : g b = 0) by (unfold g; rewrite H_b; ring).
  assert (Ya : g1 a = 0) by (unfold g1, H1; ring).
  assert (Yb : g1 b = 0) by (unfold g1; rewrite H1_b; ring).
  destruct (rolle g g1 a b Hab G1) as (c & C & E); [lra|].
  destruct (Req_dec t a) as [->|Na]; [apply Z; unfold g1 in Ya; lra|].
  destruct (Req_dec t b) as [->|Nb]; [apply Z; unfold g1 in Yb; lra|].
  destruct (Req_dec t c) as [->|Nc]; [apply Z; unfold g1 in E; lra|].
  set (w s := (s - a) * (s - c) * (s - b)).
  assert (Pw : w t <> 0) by (unfold w; apply Rmult_integral_contrapositive_currified; [apply Rmult_integral_contrapositive_currified|]; lra).
  set (kap := (f1 t - H1 t) / w t).
  set (w1 s := (s - c) * (s - b) + (s - a) * (s - b) + (s - a) * (s - c)).
  set (w2 s := 2 * ((s - a) + (s - b) + (s - c))).
  set (q s := f1 s - (H1 s + kap * w s)).
  set (q1 s := f2 s - (2 * k2 + 6 * k3 * (s - a) + kap * w1 s)).
  set (q2 s := f3 s - (6 * k3 + kap * w2 s)).
  set (q3 s := f4 s - kap * 6).
  assert (Q1 : derives q q1 a b) by (unfold q, q1, H1, w, w1; minus_poly D2; ring).
  assert (Q2 : derives q1 q2 a b) by (unfold q1, q2, w1, w2; minus_poly D3; ring).
  assert (Q3 : derives q2 q3 a b) by (unfold q2, q3, w2; minus_poly D4; ring).
  assert (Xa : q a = 0) by (unfold q; fold (g1 a) in *; unfold g1, w in *; lra).
  assert (Xb : q b = 0) by (unfold q; unfold g1, w in *; lra).
  assert (Xc : q c = 0) by (unfold q; unfold g1, w in *; lra).
  assert (Xt : q t = 0) by (unfold q, kap; field; exact Pw).
  assert (exists x, a < x < b /\ q3 x = 0) as (x & Hx & Ex).
  { destruct (Rlt_or_le t c) as [L|L].
    - apply (four_zeros q q1 q2 q3 a t c b); auto; lra.
    - apply (four_zeros q q1 q2 q3 a c t b); auto; lra. }
  assert (kap = f4 x / 6) as Ek by (unfold q3 in Ex; lra).
  assert (H1 t - f1 t = - (f4 x) * (w t / 6)) as ->.
  { replace (H1 t - f1 t) with (- (kap * w t)) by (unfold kap; field; exact Pw). rewrite Ek. field. }
  rewrite Rabs_mult, Rabs_Ropp. apply Rmult_le_compat; try apply Rabs_pos; [apply HM; lra|].
  unfold Rdiv at 1. rewrite Rabs_mult, (Rabs_pos_eq (/ 6)) by lra.
  enough (Rabs (w t) <= 4 / 27 * (d * d * d)) by lra.
  unfold w. replace ((t - a) * (t - c) * (t - b)) with (- (((t - a) * (b - t)) * (t - c))) by ring.
  rewrite Rabs_Ropp, Rabs_mult, (Rabs_pos_eq ((t - a) * (b - t))) by (apply Rmult_le_pos; lra).
  set (y := t - a) in *. assert (Y : 0 <= y <= d) by (unfold y, d; lra). replace (b - t) with (d - y) by (unfold y, d; ring).
  assert (P0 : 0 <= y * (d - y)) by (apply Rmult_le_pos; lra).
  assert (Rabs (t - c) <= Rmax y (d - y)) as Hm.
  { apply Rabs_le. pose proof (Rmax_l y (d - y)). pose proof (Rmax_r y (d - y)). unfold y, d in *. split; lra. }
  eapply Rle_trans; [apply Rmult_le_compat_l; [exact P0|exact Hm]|].
  apply Rmax_case.
  - assert (0 <= (y - 2 / 3 * d) * (y - 2 / 3 * d) * (y + d / 3)) by (apply Rmult_le_pos; [apply Rle_0_sqr|lra]). nra.
  - assert (0 <= (y - d / 3) * (y - d / 3) * (4 / 3 * d - y)) by (apply Rmult_le_pos; [apply Rle_0_sqr|lra]). nra.
Qed.
End Exact.

(** ** The largest error of a velocity *)

Lemma largest (e : nat -> R) n : exists j, (j <= n)%nat /\ forall i, (i <= n)%nat -> Rabs (e i) <= Rabs (e j).
Proof.
  induction n as [|n (j & L & H)].
  - exists 0%nat. split; [lia|]. intros i Hi. replace i with 0%nat by lia. lra.
  - destruct (Rle_dec (Rabs (e (S n))) (Rabs (e j))) as [Q|Q].
    + exists j. split; [lia|]. intros i Hi. destruct (Nat.eq_dec i (S n)) as [->|Ni]; [exact Q|]. apply H. lia.
    + exists (S n). split; [lia|]. intros i Hi. destruct (Nat.eq_dec i (S n)) as [->|Ni]; [lra|].
      specialize (H i ltac:(lia)). lra.
Qed.

Section Slopes.
Variables (n : nat) (T m : nat -> R) (f f1 : R -> R) (B : R).
Hypothesis HT : forall i, (i < n)%nat -> T i < T (i + 1)%nat.
Hypothesis HB : 0 <= B.
Hypothesis H0 : m 0%nat = f1 (T 0%nat).
Hypothesis Hn : m n = f1 (T n).
Let gap i := T (i + 1)%nat - T i.
(** The acceleration does not jump. *)
Hypothesis Hj : forall i, (i + 1 < n)%nat ->
  (2 * m i + 4 * m (i + 1)%nat - 6 * ((f (T (i + 1)%nat) - f (T i)) / gap i)) / gap i =
  (6 * ((f (T (i + 2)%nat) - f (T (i + 1)%nat)) / gap (i + 1)) - 4 * m (i + 1)%nat - 2 * m (i + 2)%nat) / gap (i + 1).
(** By how much the velocities of [f] fail to satisfy these equations. *)
Definition defect (t s : R) : R := 3 * (f s - f t) - (s - t) * (f1 s + 2 * f1 t).
Hypothesis Hd : forall i, (i + 1 < n)%nat ->
  Rabs (defect (T (i + 1)%nat) (T (i + 2)%nat) / (gap (i + 1) * gap (i + 1)) - defect (T (i + 1)%nat) (T i) / (gap i * gap i)) <=
  B * (/ gap i + / gap (i + 1)).

Lemma slopes_near i : (i <= n)%nat -> Rabs (m i - f1 (T i)) <= B.
Proof.
  intros Hi. set (e i := m i - f1 (T i)). destruct (largest e n) as (j & Lj & Hm). change (Rabs (e i) <= B).
  eapply Rle_trans; [apply (Hm i Hi)|].
  assert (Z : forall k, e k = 0 -> Rabs (e k) <= B) by (intros k ->; rewrite Rabs_R0; exact HB).
  destruct j as [|k]; [apply Z; unfold e; lra|]. destruct (Nat.eq_dec (S k) n) as [->|Nn]; [apply Z; unfold e; lra|].
  replace (S k) with (k + 1)%nat in * by lia. assert (Lk : (k + 1 < n)%nat) by lia.
  pose proof (HT k ltac:(lia)) as P1. pose proof (HT (k + 1)%nat Lk) as P2.
  replace (k + 1 + 1)%nat with (k + 2)%nat in P2 by lia.
  specialize (Hj k Lk). specialize (Hd k Lk). pose proof (Hm k ltac:(lia)) as M1. pose proof (Hm (k + 2)%nat ltac:(lia)) as M2.
  assert (Eg : gap (k + 1) = T (k + 2)%nat - T (k + 1)%nat) by (unfold gap; do 2 f_equal; lia).
  assert (G1 : 0 < gap k) by (unfold gap; lra). assert (G2 : 0 < gap (k + 1)) by (rewrite Eg; lra).
  set (u := / gap k). set (v := / gap (k + 1)).
  assert (U : 0 < u) by now apply Rinv_0_lt_compat. assert (V : 0 < v) by now apply Rinv_0_lt_compat.
  assert (EQ : 2 * (u + v) * e (k + 1)%nat =
    (defect (T (k + 1)%nat) (T (k + 2)%nat) / (gap (k + 1) * gap (k + 1)) - defect (T (k + 1)%nat) (T k) / (gap k * gap k))
    + - (u * e k) + - (v * e (k + 2)%nat)).
  { unfold defect, e.
    replace (T k - T (k + 1)%nat) with (- gap k) by (unfold gap; ring). rewrite <- Eg.
    assert (N1 : gap k <> 0) by lra. assert (N2 : gap (k + 1) <> 0) by lra.
    unfold u, v. clear - Hj N1 N2. clearbody gap.
    set (ga := gap k) in *. set (gb := gap (k + 1)%nat) in *.
    apply (Rmult_eq_compat_l (/ 2)) in Hj.
    match type of Hj with ?l = ?r => assert (Hl : l - r = 0) by lra end. clear Hj.
    match goal with |- ?l = ?r => enough (l - r = 0) by lra end. rewrite <- Hl. field. split; assumption. }
  assert (AB : 2 * (u + v) * Rabs (e (k + 1)%nat) <= B * (u + v) + u * Rabs (e (k + 1)%nat) + v * Rabs (e (k + 1)%nat)).
  { rewrite <- (Rabs_pos_eq (2 * (u + v))) by lra. rewrite <- Rabs_mult, EQ.
    eapply Rle_trans; [apply Rabs_triang|]. apply Rplus_le_compat.
    - eapply Rle_trans; [apply Rabs_triang|]. apply Rplus_le_compat; [exact Hd|].
      rewrite Rabs_Ropp, Rabs_mult, Rabs_pos_eq by lra. apply Rmult_le_compat_l; lra.
    - rewrite Rabs_Ropp, Rabs_mult, Rabs_pos_eq by lra. apply Rmult_le_compat_l; lra. }
  apply (Rmult_le_reg_l (u + v)); lra.
Qed.
End Slopes.

(** ** How far the velocities of a smooth function are from satisfying the equations *)

Section Smooth.
Variables (f f1 : R -> R) (lo hi : R).
Hypothesis D1 : derives f f1 lo hi.

Lemma derive_is t : lo <= t <= hi -> is_derive f t (f1 t).
Proof. intros Ht. apply is_derive_Reals. now apply D1. Qed.

Lemma defect_first A s t : (forall s t, lo <= s <= hi -> lo <= t <= hi -> Rabs (f1 s - f1 t) <= A * Rabs (s - t)) ->
  lo <= s <= hi -> lo <= t <= hi -> Rabs (defect f f1 t s) <= 3 / 2 * A * ((s - t) * (s - t)).
Proof.
  intros H Hs Ht. pose proof (taylor1 f f1 lo hi derive_is A s t H Hs Ht) as X. pose proof (taylor1 f f1 lo hi derive_is A t s H Ht Hs) as Y.
  replace (defect f f1 t s) with (2 * (f s - (f t + f1 t * (s - t) + 0 * ((s - t) * (s - t)))) + - (f t - (f s + f1 s * (t - s) + 0 * ((t - s) * (t - s)))))
    by (unfold defect; ring).
  eapply Rle_trans; [apply Rabs_triang|]. rewrite Rabs_mult, Rabs_Ropp, (Rabs_pos_eq 2) by lra.
  replace (A * ((t - s) * (t - s) / 2)) with (A * ((s - t) * (s - t) / 2)) in Y by field. lra.
Qed.

Variables (f2 f3 f4 : R -> R) (M : R).
Hypothesis D2 : derives f1 f2 lo hi.
Hypothesis D3 : derives f2 f3 lo hi.
Hypothesis D4 : derives f3 f4 lo hi.
Hypothesis HM : forall t, lo <= t <= hi -> Rabs (f4 t) <= M.

Lemma defect_fourth s t : lo <= s <= hi -> lo <= t <= hi ->
  Rabs (defect f f1 t s - f2 t / 2 * ((s - t) * (s - t))) <= M / 24 * (((s - t) * (s - t)) * ((s - t) * (s - t))).
Proof.
  intros Hs Ht.
  assert (In : forall s z, lo <= s <= hi -> Rmin t s <= z <= Rmax t s -> lo <= z <= hi).
  { intros s' z Hs' [Z1 Z2]. split; [eapply Rle_trans; [|exact Z1]; apply Rmin_glb; lra|eapply Rle_trans; [exact Z2|]; apply Rmax_lub; lra]. }
  assert (I1 := fun z Hz => proj2 (is_derive_Reals f z (f1 z)) (D1 z Hz)).
  assert (I2 := fun z Hz => proj2 (is_derive_Reals f1 z (f2 z)) (D2 z Hz)).
  assert (I3 := fun z Hz => proj2 (is_derive_Reals f2 z (f3 z)) (D3 z Hz)).
  assert (I4 := fun z Hz => proj2 (is_derive_Reals f3 z (f4 z)) (D4 z Hz)).
  set (r0 z := 3 * (f z - f t) - (z - t) * (f1 z + 2 * f1 t) - f2 t / 2 * ((z - t) * (z - t))).
  set (r1 z := 2 * (f1 z - f1 t) - (z - t) * f2 z - f2 t * (z - t)).
  set (r2 z := f2 z - (z - t) * f3 z - f2 t).
  set (r3 z := - ((z - t) * f4 z)).
  assert (E1 : forall z, lo <= z <= hi -> is_derive r0 z (r1 z)).
  { intros z Hz. unfold r0, r1. pose proof (I1 z Hz) as A1. pose proof (I2 z Hz) as A2. auto_derive; [split; [eexists; exact A1|split; [eexists; exact A2|exact I]]|].
    change (fun x => f x) with f. change (fun x => f1 x) with f1. rewrite (is_derive_unique _ _ _ A1), (is_derive_unique _ _ _ A2). field. }
  assert (E2 : forall z, lo <= z <= hi -> is_derive r1 z (r2 z)).
  { intros z Hz. unfold r1, r2. pose proof (I2 z Hz) as A1. pose proof (I3 z Hz) as A2. auto_derive; [split; [eexists; exact A1|split; [eexists; exact A2|exact I]]|].
    change (fun x => f1 x) with f1. change (fun x => f2 x) with f2. rewrite (is_derive_unique _ _ _ A1), (is_derive_unique _ _ _ A2). field. }
  assert (E3 : forall z, lo <= z <= hi -> is_derive r2 z (r3 z)).
  { intros z Hz. unfold r2, r3. pose proof (I3 z Hz) as A1. pose proof (I4 z Hz) as A2. auto_derive; [split; [eexists; exact A1|split; [eexists; exact A2|exact I]]|].
    change (fun x => f2 x) with f2. change (fun x => f3 x) with f3. rewrite (is_derive_unique _ _ _ A1), (is_derive_unique _ _ _ A2). field. }
  assert (B2 : forall z, lo <= z <= hi -> Rabs (r2 z) <= M / 2 * Rabs (z - t) ^ 2).
  { intros z Hz. replace (M / 2 * Rabs (z - t) ^ 2) with (M * Rabs (z - t) ^ 2 / INR 2) by (cbn; field).
    apply (bounded_from r2 r3 t z M 1); [intros x Hx; apply E3; exact (In z x Hz Hx)|unfold r2; ring|].
    intros x Hx. unfold r3. rewrite Rabs_Ropp, Rabs_mult, pow_1, (Rmult_comm (Rabs (x - t))). apply Rmult_le_compat_r; [apply Rabs_pos|]. apply HM. exact (In z x Hz Hx). }
  assert (B1 : forall z, lo <= z <= hi -> Rabs (r1 z) <= M / 6 * Rabs (z - t) ^ 3).
  { intros z Hz. replace (M / 6 * Rabs (z - t) ^ 3) with (M / 2 * Rabs (z - t) ^ 3 / INR 3) by (cbn; field).
    apply (bounded_from r1 r2 t z (M / 2) 2); [intros x Hx; apply E2; exact (In z x Hz Hx)|unfold r1; ring|]. intros x Hx. apply B2. exact (In z x Hz Hx). }
  change (Rabs (r0 s) <= M / 24 * ((s - t) * (s - t) * ((s - t) * (s - t)))).
  replace (M / 24 * ((s - t) * (s - t) * ((s - t) * (s - t)))) with (M / 6 * Rabs (s - t) ^ 4 / INR 4).
  - apply (bounded_from r0 r1 t s (M / 6) 3); [intros x Hx; apply E1; exact (In s x Hs Hx)|unfold r0; ring|]. intros x Hx. apply B1. exact (In s x Hs Hx).
  - replace (Rabs (s - t) ^ 4) with (Rabs (s - t) ^ 2 * Rabs (s - t) ^ 2) by ring. rewrite pow2_abs. replace (INR 4) with 4 by (cbn; ring). field.
Qed.
End Smooth.

(** ** One segment *)

Lemma weights x : 0 <= x <= 1 -> Rabs ((1 - x) * (1 - 3 * x)) + Rabs (x * (2 - 3 * x)) <= 1.
Proof.
  intros X. destruct (Rle_lt_dec x (/ 3)) as [A|A].
  { rewrite !Rabs_pos_eq by nra. nra. }
  destruct (Rle_lt_dec (2 / 3) x) as [B|B].
  { rewrite !Rabs_left1 by nra. nra. }
  rewrite (Rabs_left1 ((1 - x) * (1 - 3 * x))), (Rabs_pos_eq (x * (2 - 3 * x))) by nra. nra.
Qed.

Lemma position_weights x : 0 <= x <= 1 ->
  (1 - x) * (1 - x) * (1 + 2 * x) * (x * x / 2) + x * x * (3 - 2 * x) * ((1 - x) * (1 - x) / 2) +
    x * ((1 - x) * (1 - x)) * (3 / 2 + x) + x * x * (1 - x) * (3 / 2 + (1 - x)) <= 5 / 8.
Proof.
  intros X. set (u := x * (1 - x)). pose proof (quarter x X) as HU. fold u in HU.
  replace (_ + _) with (4 * (u * u) + 3 / 2 * u) by (unfold u; field). nra.
Qed.

Lemma velocity_weights x : 0 <= x <= 1 ->
  6 * x * (1 - x) * (x * x / 2) + 6 * x * (1 - x) * ((1 - x) * (1 - x) / 2) + Rabs ((1 - x) * (1 - 3 * x)) * (3 / 2 + x) +
    Rabs (x * (2 - 3 * x)) * (3 / 2 + (1 - x)) <= 5 / 3.
Proof.
  intros X. assert (S : forall y, 0 <= y <= / 3 -> 3 / 2 + 3 * y - 18 * (y * y) + 18 * (y * y * y) - 6 * (y * y * y * y) <= 5 / 3).
  { intros y Y.
    assert (0 <= (144 / 10 - 18 * y) * ((y - 1 / 10) * (y - 1 / 10))) by (apply Rmult_le_pos; [lra|apply Rle_0_sqr]).
    assert (0 <= (y * y) * (y * y)) by apply Rle_0_sqr. lra. }
  destruct (Rle_lt_dec x (/ 3)) as [A|A].
  { rewrite !Rabs_pos_eq by nra. pose proof (S x ltac:(lra)). lra. }
  destruct (Rle_lt_dec (2 / 3) x) as [B|B].
  { rewrite !Rabs_left1 by nra. pose proof (S (1 - x) ltac:(lra)). lra. }
  rewrite (Rabs_left1 ((1 - x) * (1 - 3 * x))), (Rabs_pos_eq (x * (2 - 3 * x))) by nra.
  set (u := x * (1 - x)). pose proof (quarter x X) as HU. fold u in HU.
  assert (0 <= (u - / 4) * (u - / 4)) by apply Rle_0_sqr. unfold u in *. lra.
Qed.

Section Piece.
Variables (f f1 : R -> R) (a b h m0 m1 t : R).
Hypothesis Hab : a < b.
Hypothesis Hh : b - a <= h.
Hypothesis Ht : a <= t <= b.
Hypothesis D1 : derives f f1 a b.

Let d := b - a.
Let x := (t - a) / d.

Lemma piece_first A : 0 <= A -> (forall s t, a <= s <= b -> a <= t <= b -> Rabs (f1 s - f1 t) <= A * Rabs (s - t)) ->
  Rabs (m0 - f1 a) <= 3 / 2 * A * h -> Rabs (m1 - f1 b) <= 3 / 2 * A * h ->
  Rabs (hval a b (f a) m0 (f b) m1 t - f t) <= 5 / 8 * A * (h * h) /\ Rabs (hvel a b (f a) m0 (f b) m1 t - f1 t) <= 5 / 3 * A * h.
Proof.
  intros PA HA E0 E1. pose proof (fraction_bounds a b t Hab Ht) as X. fold d in X. change ((t - a) / d) with x in X.
  assert (Pd : 0 < d) by (unfold d; lra). assert (Ph : 0 < h) by (fold d in Hh; lra).
  assert (Ia : a <= a <= b) by lra. assert (Ib : a <= b <= b) by lra.
  assert (Ta : t - a = x * d) by (unfold x; field; lra). assert (Tb : b - t = (1 - x) * d) by (unfold x, d; field; unfold d in *; lra).
  assert (I : forall s, a <= s <= b -> is_derive f s (f1 s)) by (intros s Hs; apply is_derive_Reals; now apply D1).
  pose proof (taylor1 f f1 a b I A a t HA Ia Ht) as P0. pose proof (taylor1 f f1 a b I A b t HA Ib Ht) as P1.
  assert (Hah : A * d <= A * h) by (apply Rmult_le_compat_l; [exact PA|exact Hh]).
  assert (W0 : Rabs (m0 - (f1 t + 2 * 0 * (a - t))) <= A * h * (3 / 2 + x)).
  { replace (m0 - (f1 t + 2 * 0 * (a - t))) with ((m0 - f1 a) + (f1 a - f1 t)) by ring. eapply Rle_trans; [apply Rabs_triang|].
    pose proof (HA a t Ia Ht) as Q. replace (a - t) with (- (x * d)) in Q by lra. rewrite Rabs_Ropp, (Rabs_pos_eq (x * d)) in Q by nra.
    assert (x * (A * d) <= x * (A * h)) by (apply Rmult_le_compat_l; lra). lra. }
  assert (W1 : Rabs (m1 - (f1 t + 2 * 0 * (b - t))) <= A * h * (3 / 2 + (1 - x))).
  { replace (m1 - (f1 t + 2 * 0 * (b - t))) with ((m1 - f1 b) + (f1 b - f1 t)) by ring. eapply Rle_trans; [apply Rabs_triang|].
    pose proof (HA b t Ib Ht) as Q. rewrite Tb in Q. rewrite (Rabs_pos_eq ((1 - x) * d)) in Q by nra.
    assert ((1 - x) * (A * d) <= (1 - x) * (A * h)) by (apply Rmult_le_compat_l; lra). lra. }
  assert (Hdd : d * d <= h * h) by (apply Rmult_le_compat; fold d in Hh; lra).
  assert (Hdh : d * h <= h * h) by (apply Rmult_le_compat_r; fold d in Hh; lra).
  assert (Hdd' : A * d * d <= A * h * d) by (apply Rmult_le_compat_r; lra).
  assert (PX : 0 <= x * x) by apply Rle_0_sqr. assert (PY : 0 <= (1 - x) * (1 - x)) by apply Rle_0_sqr.
  split.
  - eapply Rle_trans; [apply (value_error a b (f a) m0 (f b) m1 t (f t) (f1 t) 0 _ _ _ _ Hab Ht P0 P1 W0 W1)|]. fold d. change ((t - a) / d) with x.
    replace (a - t) with (- (x * d)) by lra. rewrite Tb.
    pose proof (position_weights x X) as PW. apply (Rmult_le_compat_l (A * (h * h))) in PW; [|apply Rmult_le_pos; nra].
    assert (Q : forall w y z, 0 <= w -> y <= z -> A * (w * y) <= A * (w * z)) by (intros w y z ? ?; apply Rmult_le_compat_l; [exact PA|]; now apply Rmult_le_compat_l).
    assert (C0 : 0 <= (1 - x) * (1 - x) * (1 + 2 * x) * (x * x / 2)) by (apply Rmult_le_pos; [apply Rmult_le_pos|]; lra).
    assert (C1 : 0 <= x * x * (3 - 2 * x) * ((1 - x) * (1 - x) / 2)) by (apply Rmult_le_pos; [apply Rmult_le_pos|]; lra).
    assert (C2 : 0 <= x * ((1 - x) * (1 - x)) * (3 / 2 + x)) by (apply Rmult_le_pos; [apply Rmult_le_pos|]; lra).
    assert (C3 : 0 <= x * x * (1 - x) * (3 / 2 + (1 - x))) by (apply Rmult_le_pos; [apply Rmult_le_pos|]; lra).
    pose proof (Q _ _ _ C0 Hdd). pose proof (Q _ _ _ C1 Hdd). pose proof (Q _ _ _ C2 Hdh). pose proof (Q _ _ _ C3 Hdh). lra.
  - eapply Rle_trans; [apply (velocity_error a b (f a) m0 (f b) m1 t (f t) (f1 t) 0 _ _ _ _ Hab Ht P0 P1 W0 W1)|]. fold d. change ((t - a) / d) with x.
    replace (a - t) with (- (x * d)) by lra. rewrite Tb.
    pose proof (velocity_weights x X) as PW. apply (Rmult_le_compat_l (A * h)) in PW; [|apply Rmult_le_pos; lra].
    replace (6 * x * (1 - x) / d * (A * (- (x * d) * - (x * d) / 2))) with (A * d * (6 * x * (1 - x) * (x * x / 2))) by (field; lra).
    replace (6 * x * (1 - x) / d * (A * ((1 - x) * d * ((1 - x) * d) / 2))) with (A * d * (6 * x * (1 - x) * ((1 - x) * (1 - x) / 2))) by (field; lra).
    assert (C : 0 <= 6 * x * (1 - x)) by (pose proof (quarter x X); lra).
    assert (C0 : 0 <= 6 * x * (1 - x) * (x * x / 2)) by (apply Rmult_le_pos; lra).
    assert (C1 : 0 <= 6 * x * (1 - x) * ((1 - x) * (1 - x) / 2)) by (apply Rmult_le_pos; lra).
    pose proof (Rmult_le_compat_r _ _ _ C0 Hah). pose proof (Rmult_le_compat_r _ _ _ C1 Hah). lra.
Qed.

Lemma piece_fourth f2 f3 f4 M : derives f1 f2 a b -> derives f2 f3 a b -> derives f3 f4 a b -> (forall s, a <= s <= b -> Rabs (f4 s) <= M) ->
  Rabs (m0 - f1 a) <= M * (h * h * h) / 24 -> Rabs (m1 - f1 b) <= M * (h * h * h) / 24 ->
  Rabs (hval a b (f a) m0 (f b) m1 t - f t) <= 5 / 384 * M * (h * h * (h * h)) /\
  Rabs (hvel a b (f a) m0 (f b) m1 t - f1 t) <= M * (h * h * h) / 15.
Proof.
  intros D2 D3 D4 HM E0 E1. pose proof (fraction_bounds a b t Hab Ht) as X. fold d in X. change ((t - a) / d) with x in X.
  assert (Pd : 0 < d) by (unfold d; lra). assert (Hdh : d <= h) by exact Hh. assert (Ph : 0 < h) by lra.
  assert (PM : 0 <= M) by (eapply Rle_trans; [apply Rabs_pos|apply (HM a); lra]).
  assert (Ta : t - a = x * d) by (unfold x; field; lra). assert (Tb : b - t = (1 - x) * d) by (unfold x, d; field; unfold d in *; lra).
  pose proof (exact_value f f1 f2 f3 f4 a b M Hab D1 D2 D3 D4 HM t Ht) as V.
  pose proof (exact_velocity f f1 f2 f3 f4 a b M Hab D1 D2 D3 D4 HM t Ht) as W. fold d in W.
  rewrite Ta, Tb in V. pose proof (quarter x X) as U. set (u := x * (1 - x)) in *.
  assert (Hd2 : d * d <= h * h) by (apply Rmult_le_compat; lra). assert (Pd2 : 0 <= d * d) by nra.
  assert (Hd3 : d * d * d <= h * h * h) by (apply Rmult_le_compat; lra).
  assert (Hd4 : d * d * (d * d) <= h * h * (h * h)) by (apply Rmult_le_compat; lra).
  assert (Ph3 : 0 <= h * h * h) by (apply Rmult_le_pos; [apply Rmult_le_pos|]; lra).
  set (B := M * (h * h * h) / 24) in *. assert (PB : 0 <= B) by (unfold B; assert (0 <= M * (h * h * h)) by (apply Rmult_le_pos; assumption); lra).
  split.
  - replace (hval a b (f a) m0 (f b) m1 t - f t) with
      ((hval a b (f a) (f1 a) (f b) (f1 b) t - f t) + (d * u) * ((1 - x) * (m0 - f1 a) + x * - (m1 - f1 b)))
      by (unfold hval; cbv zeta; fold d; change ((t - a) / d) with x; unfold u; ring).
    eapply Rle_trans; [apply Rabs_triang|].
    assert (Q : Rabs ((1 - x) * (m0 - f1 a) + x * - (m1 - f1 b)) <= B).
    { eapply Rle_trans; [apply Rabs_triang|]. rewrite !Rabs_mult, Rabs_Ropp, (Rabs_pos_eq (1 - x)), (Rabs_pos_eq x) by lra.
      assert ((1 - x) * Rabs (m0 - f1 a) <= (1 - x) * B) by (apply Rmult_le_compat_l; lra).
      assert (x * Rabs (m1 - f1 b) <= x * B) by (apply Rmult_le_compat_l; lra). lra. }
    assert (Q' : Rabs (d * u * ((1 - x) * (m0 - f1 a) + x * - (m1 - f1 b))) <= h / 4 * B).
    { rewrite Rabs_mult, (Rabs_pos_eq (d * u)) by (apply Rmult_le_pos; lra). apply Rmult_le_compat; [apply Rmult_le_pos; lra|apply Rabs_pos| |exact Q].
      replace (h / 4) with (h * / 4) by field. apply Rmult_le_compat; lra. }
    assert (V' : M * (x * d * ((1 - x) * d) * (x * d * ((1 - x) * d)) / 24) <= M * (h * h * (h * h) / 384)).
    { apply Rmult_le_compat_l; [exact PM|]. replace (x * d * ((1 - x) * d) * (x * d * ((1 - x) * d))) with ((u * u) * (d * d * (d * d))) by (unfold u; ring).
      assert (u * u <= / 4 * / 4) by (apply Rmult_le_compat; lra). assert (0 <= u * u) by nra. assert (0 <= d * d * (d * d)) by nra.
      assert ((u * u) * (d * d * (d * d)) <= (/ 4 * / 4) * (h * h * (h * h))) by (apply Rmult_le_compat; lra). lra. }
    unfold B in Q'. lra.
  - replace (hvel a b (f a) m0 (f b) m1 t - f1 t) with
      ((hvel a b (f a) (f1 a) (f b) (f1 b) t - f1 t) + ((1 - x) * (1 - 3 * x) * (m0 - f1 a) + x * (2 - 3 * x) * - (m1 - f1 b)))
      by (unfold hvel; cbv zeta; fold d; change ((t - a) / d) with x; ring).
    eapply Rle_trans; [apply Rabs_triang|].
    assert (Q : Rabs ((1 - x) * (1 - 3 * x) * (m0 - f1 a) + x * (2 - 3 * x) * - (m1 - f1 b)) <= B).
    { eapply Rle_trans; [apply Rabs_triang|].
      pose proof (weighted' ((1 - x) * (1 - 3 * x)) B (m0 - f1 a) E0) as Q0.
      assert (E1' : Rabs (- (m1 - f1 b)) <= B) by now rewrite Rabs_Ropp.
      pose proof (weighted' (x * (2 - 3 * x)) B (- (m1 - f1 b)) E1') as Q1.
      pose proof (weights x X) as Q. apply (Rmult_le_compat_r B) in Q; [|exact PB]. lra. }
    assert (W' : M * (2 / 81 * (d * d * d)) <= M * (2 / 81 * (h * h * h))) by (apply Rmult_le_compat_l; lra).
    assert (0 <= M * (h * h * h)) by (apply Rmult_le_pos; assumption).
    unfold B in Q. lra.
Qed.
End Piece.

(** ** The whole spline *)

Section Fitted.
Variables (knots : list R) (f f1 : R -> R) (segs : list (list R)) (h : R).
Hypothesis Hv : valid_knots knots (map f knots).
Local Notation D := (diffs knots).
Local Notation n := (length (diffs knots)).
Local Notation T i := (nth i knots 0).
Local Notation first := (nth 0 knots 0).
Local Notation last := (nth (length knots - 1) knots 0).
Hypothesis Hsegs : segments 3 n segs.
Hypothesis Hgood : good 3 n D (map f knots) [f1 first] [f1 last] segs.
Hypothesis Hh : spaced h knots.
Hypothesis D1 : derives f f1 first last.
Local Notation c := (holding (splines_of segs D)).

Lemma fit_n : length knots = (n + 1)%nat /\ (1 <= n)%nat /\ (Z.of_nat n < 2 ^ 31)%Z.
Proof. destruct Hv as (A & _ & _ & B). pose proof (diffs_length knots). lia. Qed.

Lemma fit_positive : positive D.
Proof. apply diffs_positive, Hv. Qed.

Lemma fit_order i j : (i <= j <= n)%nat -> T i <= T j.
Proof.
  intros [L U]. induction L as [|j L IH]; [lra|]. specialize (IH ltac:(lia)).
  destruct Hv as (_ & I & _). destruct fit_n as (E & _). specialize (I j ltac:(lia)). rewrite Nat.add_1_r in I. lra.
Qed.

Lemma fit_range i : (i <= n)%nat -> first <= T i <= last.
Proof.
  intros L. destruct fit_n as (E & _). replace (length knots - 1)%nat with n by lia. split; apply fit_order; lia.
Qed.

Lemma fit_start i : (i <= n)%nat -> start (splines_of segs D) i = T i - first.
Proof. intros L. apply start_knots. destruct fit_n. lia. Qed.

Lemma fit_sample i : (i <= n)%nat -> nth i (map f knots) 0 = f (T i).
Proof.
  intros L. destruct fit_n as (E & _). rewrite (nth_indep _ 0 (f 0)) by (rewrite map_length; lia). apply map_nth.
Qed.

Definition slope_at (i : nat) : R := velocity 3 c (T i - first).

(** The pieces are the Hermite cubics through the samples with these velocities. *)
Lemma fit_piece i : (i < n)%nat -> exists c2 c3, let y t := t - T i in let d := T (i + 1) - T i in
  (forall t, T i <= t <= T (i + 1) ->
    position 3 c (t - first) = f (T i) + slope_at i * y t + c2 * (y t * y t) + c3 * (y t * y t * y t) /\
    velocity 3 c (t - first) = slope_at i + 2 * c2 * y t + 3 * c3 * (y t * y t) /\
    acceleration 3 c (t - first) = 2 * c2 + 6 * c3 * y t) /\
  f (T (i + 1)) = f (T i) + slope_at i * d + c2 * (d * d) + c3 * (d * d * d) /\
  slope_at (i + 1) = slope_at i + 2 * c2 * d + 3 * c3 * (d * d).
Proof.
  intros L. destruct fit_n as (En & N1 & Ns).
  assert (o3 : (1 <= 3 <= 5)%nat) by lia. assert (Hj : joined 3 n D (map f knots) segs) by apply Hgood.
  pose proof (seg_length 3 D segs o3 N1 Hsegs i L) as Lc. remember (nth i segs []) as cs eqn:Ec.
  destruct cs as [|c3 [|c2 [|c1 [|c0 [|]]]]]; try discriminate. clear Lc.
  assert (P : forall t, T i <= t <= T (i + 1) ->
    position 3 c (t - first) = c0 + c1 * (t - T i) + c2 * ((t - T i) * (t - T i)) + c3 * ((t - T i) * (t - T i) * (t - T i)) /\
    velocity 3 c (t - first) = c1 + 2 * c2 * (t - T i) + 3 * c3 * ((t - T i) * (t - T i)) /\
    acceleration 3 c (t - first) = 2 * c2 + 6 * c3 * (t - T i)).
  { intros t Ht. destruct (closed_piece 3 D (map f knots) segs o3 N1 Ns fit_positive Hsegs Hj i (t - first) L) as (A & B & C).
    { rewrite !fit_start by lia. lra. }
    rewrite A, B, C, fit_start, <- Ec by lia. replace (t - first - (T i - first)) with (t - T i) by ring.
    unfold poly, dpoly, ddpoly. cbn [sum_f_R0 nth Nat.sub pow INR]. split; [ring|]. split; ring. }
  assert (Oi : T i < T (i + 1)) by (apply Hv; lia).
  assert (K : forall j, (j <= n)%nat -> position 3 c (T j - first) = f (T j)).
  { intros j Lj. rewrite <- fit_start, <- fit_sample by lia. eapply pos_knot; eauto. exact fit_positive. }
  destruct (P (T i) ltac:(lra)) as (A0 & B0 & _). destruct (P (T (i + 1)) ltac:(lra)) as (A1 & B1 & _).
  rewrite K in A0 by lia. rewrite K in A1 by lia. fold (slope_at i) in B0. fold (slope_at (i + 1)) in B1.
  assert (F0 : c0 = f (T i)) by (rewrite A0; ring). assert (F1 : c1 = slope_at i) by (rewrite B0; ring).
  exists c2, c3. cbv zeta. rewrite <- F0, <- F1. split; [exact P|]. split; [exact A1|exact B1].
Qed.

Lemma fit_hermite i t : (i < n)%nat -> T i <= t <= T (i + 1) ->
  position 3 c (t - first) = hval (T i) (T (i + 1)) (f (T i)) (slope_at i) (f (T (i + 1))) (slope_at (i + 1)) t /\
  velocity 3 c (t - first) = hvel (T i) (T (i + 1)) (f (T i)) (slope_at i) (f (T (i + 1))) (slope_at (i + 1)) t.
Proof.
  intros L Ht. destruct (fit_piece i L) as (c2 & c3 & P & A & B). destruct (P t Ht) as (-> & -> & _). rewrite A, B.
  assert (Oi : T i < T (i + 1)) by (apply Hv; destruct fit_n; lia).
  unfold hval, hvel. cbv zeta. split; field; lra.
Qed.

Lemma fit_smooth i : (i + 1 < n)%nat ->
  (2 * slope_at i + 4 * slope_at (i + 1) - 6 * ((f (T (i + 1)) - f (T i)) / (T (i + 1) - T i))) / (T (i + 1) - T i) =
  (6 * ((f (T (i + 2)) - f (T (i + 1))) / (T (i + 1 + 1) - T (i + 1))) - 4 * slope_at (i + 1) - 2 * slope_at (i + 2)) / (T (i + 1 + 1) - T (i + 1)).
Proof.
  intros L. destruct fit_n as (En & _).
  destruct (fit_piece i ltac:(lia)) as (c2 & c3 & P & A & B). destruct (fit_piece (i + 1) L) as (e2 & e3 & Q & A' & B').
  assert (O1 : T i < T (i + 1)) by (apply Hv; lia). assert (O2 : T (i + 1) < T (i + 1 + 1)) by (apply Hv; lia).
  destruct (P (T (i + 1)) ltac:(lra)) as (_ & _ & C1). destruct (Q (T (i + 1)) ltac:(lra)) as (_ & _ & C2).
  replace (i + 2)%nat with (i + 1 + 1)%nat by lia. rewrite C1 in C2. rewrite A', B'. rewrite A at 1. rewrite B at 1.
  transitivity (2 * c2 + 6 * c3 * (T (i + 1) - T i)); [field; lra|]. rewrite C2. field. lra.
Qed.

Lemma fit_ends : slope_at 0 = f1 first /\ slope_at n = f1 (T n).
Proof.
  destruct fit_n as (En & N1 & Ns). unfold slope_at. split.
  - replace (first - first) with 0 by ring. eapply vel_start; eauto. exact fit_positive.
  - rewrite <- fit_start by lia. replace (T n) with last by (f_equal; lia). eapply vel_end; eauto. exact fit_positive.
Qed.

Lemma fit_which t : first <= t <= last -> exists i, (i < n)%nat /\ T i <= t <= T (i + 1).
Proof.
  intros Ht. destruct fit_n as (En & N1 & Ns).
  assert (H : forall k, (k <= n)%nat -> t <= T k -> exists i, (i < n)%nat /\ T i <= t <= T (i + 1)).
  { induction k as [|k IH]; intros Lk Hk.
    - exists 0%nat. assert (first < T (0 + 1)) by (apply Hv; lia). split; [lia|]. lra.
    - destruct (Rle_dec t (T k)) as [Y|Y]; [apply IH; [lia|exact Y]|].
      exists k. rewrite Nat.add_1_r. split; [lia|]. split; lra. }
  apply (H n); [lia|]. replace n with (length knots - 1)%nat by lia. lra.
Qed.

Lemma fit_h : 0 < h.
Proof.
  destruct Hv as (L & I & _). specialize (I 0%nat ltac:(lia)). specialize (Hh 0%nat ltac:(lia)). lra.
Qed.

Lemma derives_piece (g g' : R -> R) i : (i < n)%nat -> derives g g' first last -> derives g g' (T i) (T (i + 1)).
Proof.
  intros L H. pose proof (fit_range i ltac:(lia)). pose proof (fit_range (i + 1) ltac:(lia)). apply (derives_in g g' _ _ _ _ H); lra.
Qed.

Lemma over_gap (d : R) : 0 < d -> d <= h -> 1 <= h * / d.
Proof. intros P L. replace 1 with (d * / d) by (field; lra). apply Rmult_le_compat_r; [left; now apply Rinv_0_lt_compat|exact L]. Qed.

Lemma fit_first A t : steady A f1 first last -> first <= t <= last ->
  Rabs (position 3 c (t - first) - f t) <= 5 / 8 * A * (h * h) /\ Rabs (velocity 3 c (t - first) - f1 t) <= 5 / 3 * A * h.
Proof.
  intros HA Ht. pose proof fit_h as Ph. destruct fit_n as (En & N1 & Ns).
  assert (PA : 0 <= A).
  { assert (O : T 0 < T (0 + 1)) by (apply Hv; lia). pose proof (HA (T (0 + 1)) (T 0) (fit_range (0 + 1) ltac:(lia)) (fit_range 0 ltac:(lia))) as Q.
    pose proof (Rabs_pos (f1 (T (0 + 1)) - f1 (T 0))). rewrite (Rabs_pos_eq (T (0 + 1) - T 0)) in Q by lra.
    destruct (Rle_lt_dec 0 A) as [Y|Y]; [exact Y|]. assert (0 < - A * (T (0 + 1) - T 0)) by (apply Rmult_lt_0_compat; lra). lra. }
  assert (S : forall i, (i <= n)%nat -> Rabs (slope_at i - f1 (T i)) <= 3 / 2 * A * h).
  { intros i L. apply (slopes_near n (fun i => T i) slope_at f f1 (3 / 2 * A * h)); try exact L.
    - intros k Lk. apply Hv. lia.
    - apply Rmult_le_pos; lra.
    - apply fit_ends.
    - apply fit_ends.
    - intros k Lk. apply (fit_smooth k Lk).
    - intros k Lk. cbn beta. replace (k + 2)%nat with (k + 1 + 1)%nat by lia.
      assert (O1 : T k < T (k + 1)) by (apply Hv; lia). assert (O2 : T (k + 1) < T (k + 1 + 1)) by (apply Hv; lia).
      pose proof (Hh k ltac:(lia)) as G1. pose proof (Hh (k + 1)%nat ltac:(lia)) as G2.
      pose proof (defect_first f f1 first last D1 A _ _ HA (fit_range (k + 1 + 1) ltac:(lia)) (fit_range (k + 1) ltac:(lia))) as X.
      pose proof (defect_first f f1 first last D1 A _ _ HA (fit_range k ltac:(lia)) (fit_range (k + 1) ltac:(lia))) as Y.
      set (d1 := T (k + 1) - T k) in *. set (d2 := T (k + 1 + 1) - T (k + 1)) in *.
      replace (T k - T (k + 1)) with (- d1) in Y by (unfold d1; ring).
      assert (P1 : 0 < d1) by (unfold d1; lra). assert (P2 : 0 < d2) by (unfold d2; lra).
      assert (Q : forall z d, 0 < d -> Rabs z <= 3 / 2 * A * (d * d) -> Rabs (z / (d * d)) <= 3 / 2 * A).
      { intros z d Pd Hz. unfold Rdiv at 1. assert (0 < d * d) by nra. rewrite Rabs_mult, (Rabs_pos_eq (/ (d * d))) by (left; now apply Rinv_0_lt_compat).
        apply (Rmult_le_reg_r (d * d)); [assumption|]. rewrite Rmult_assoc, Rinv_l by lra. lra. }
      apply Q in X; [|exact P2]. replace (- d1 * - d1) with (d1 * d1) in Y by ring. apply Q in Y; [|exact P1].
      pose proof (over_gap d1 P1 G1) as V1. pose proof (over_gap d2 P2 G2) as V2.
      apply (Rmult_le_compat_l (3 / 2 * A)) in V1; [|lra]. apply (Rmult_le_compat_l (3 / 2 * A)) in V2; [|lra].
      eapply Rle_trans; [apply Rabs_triang|]. rewrite Rabs_Ropp. lra. }
  destruct (fit_which t Ht) as (i & L & Hi). destruct (fit_hermite i t L Hi) as [-> ->].
  apply piece_first; auto; try (apply S; lia).
  - apply Hv. lia.
  - apply Hh. lia.
  - now apply derives_piece.
  - intros s s' Hs Hs'. pose proof (fit_range i ltac:(lia)). pose proof (fit_range (i + 1) ltac:(lia)). apply HA; lra.
Qed.

Lemma fit_fourth f2 f3 f4 M t : derives f1 f2 first last -> derives f2 f3 first last -> derives f3 f4 first last ->
  (forall s, first <= s <= last -> Rabs (f4 s) <= M) -> first <= t <= last ->
  Rabs (position 3 c (t - first) - f t) <= 5 / 384 * M * (h * h * (h * h)) /\ Rabs (velocity 3 c (t - first) - f1 t) <= M * (h * h * h) / 15 /\
  (forall i, (i <= n)%nat -> Rabs (velocity 3 c (T i - first) - f1 (T i)) <= M * (h * h * h) / 24).
Proof.
  intros D2 D3 D4 HM Ht. pose proof fit_h as Ph. destruct fit_n as (En & N1 & Ns).
  assert (PM : 0 <= M) by (eapply Rle_trans; [apply Rabs_pos|apply (HM t Ht)]).
  assert (Ph3 : 0 <= h * h * h) by (apply Rmult_le_pos; [apply Rmult_le_pos|]; lra).
  assert (S : forall i, (i <= n)%nat -> Rabs (slope_at i - f1 (T i)) <= M * (h * h * h) / 24).
  { intros i L. apply (slopes_near n (fun i => T i) slope_at f f1 (M * (h * h * h) / 24)); try exact L.
    - intros k Lk. apply Hv. lia.
    - assert (0 <= M * (h * h * h)) by (apply Rmult_le_pos; lra). lra.
    - apply fit_ends.
    - apply fit_ends.
    - intros k Lk. apply (fit_smooth k Lk).
    - intros k Lk. cbn beta. replace (k + 2)%nat with (k + 1 + 1)%nat by lia.
      assert (O1 : T k < T (k + 1)) by (apply Hv; lia). assert (O2 : T (k + 1) < T (k + 1 + 1)) by (apply Hv; lia).
      pose proof (Hh k ltac:(lia)) as G1. pose proof (Hh (k + 1)%nat ltac:(lia)) as G2.
      pose proof (defect_fourth f f1 first last D1 f2 f3 f4 M D2 D3 D4 HM _ _ (fit_range (k + 1 + 1) ltac:(lia)) (fit_range (k + 1) ltac:(lia))) as X.
      pose proof (defect_fourth f f1 first last D1 f2 f3 f4 M D2 D3 D4 HM _ _ (fit_range k ltac:(lia)) (fit_range (k + 1) ltac:(lia))) as Y.
      set (d1 := T (k + 1) - T k) in *. set (d2 := T (k + 1 + 1) - T (k + 1)) in *.
      replace (T k - T (k + 1)) with (- d1) in Y by (unfold d1; ring). replace (- d1 * - d1) with (d1 * d1) in Y by ring.
      assert (P1 : 0 < d1) by (unfold d1; lra). assert (P2 : 0 < d2) by (unfold d2; lra).
      assert (Q : forall z d y, 0 < d -> d <= h -> Rabs (z - y / 2 * (d * d)) <= M / 24 * (d * d * (d * d)) -> Rabs (z / (d * d) - y / 2) <= M * (h * h * h) / 24 * / d).
      { intros z d y Pd Ld Hz. assert (Pdd : 0 < d * d) by nra.
        replace (z / (d * d) - y / 2) with ((z - y / 2 * (d * d)) * / (d * d)) by (field; lra).
        rewrite Rabs_mult, (Rabs_pos_eq (/ (d * d))) by (left; now apply Rinv_0_lt_compat).
        apply (Rmult_le_reg_r (d * d)); [assumption|]. rewrite Rmult_assoc, Rinv_l, Rmult_1_r by lra.
        eapply Rle_trans; [exact Hz|]. replace (M * (h * h * h) / 24 * / d * (d * d)) with (M / 24 * (h * h * h * d)) by (field; lra).
        apply Rmult_le_compat_l; [lra|]. replace (d * d * (d * d)) with (d * d * d * d) by ring. apply Rmult_le_compat_r; [lra|].
        apply Rmult_le_compat; try lra. apply Rmult_le_compat; lra. }
      apply Q in X; auto. apply Q in Y; auto.
      set (E := T (k + 1)) in *.
      replace (defect f f1 E (T (k + 1 + 1)) / (d2 * d2) - defect f f1 E (T k) / (d1 * d1)) with
        ((defect f f1 E (T (k + 1 + 1)) / (d2 * d2) - f2 E / 2) + - (defect f f1 E (T k) / (d1 * d1) - f2 E / 2)) by ring.
      eapply Rle_trans; [apply Rabs_triang|]. rewrite Rabs_Ropp. lra. }
  rewrite <- and_assoc. split; [|exact S].
  destruct (fit_which t Ht) as (i & L & Hi). destruct (fit_hermite i t L Hi) as [-> ->].
  apply (piece_fourth f f1 (T i) (T (i + 1)) h (slope_at i) (slope_at (i + 1)) t) with (f2 := f2) (f3 := f3) (f4 := f4); auto; try (apply S; lia); try (now apply derives_piece).
  - apply Hv. lia.
  - apply Hh. lia.
  - intros s Hs. pose proof (fit_range i ltac:(lia)). pose proof (fit_range (i + 1) ltac:(lia)). apply HM; lra.
Qed.

(** Evaluation succeeds. *)
Lemma fit_defined t : first <= t <= last ->
  get_position_at_time 3 c (t - first) = Ok (position 3 c (t - first)) /\ get_velocity_at_time 3 c (t - first) = Ok (velocity 3 c (t - first)).
Proof.
  intros Ht. destruct fit_n as (En & N1 & Ns). unfold position, velocity. destruct (Req_dec t last) as [E|E].
  - destruct (last_end 3 D segs ltac:(lia) N1 Ns fit_positive Hsegs (t - first)) as (-> & -> & _); [|auto].
    rewrite fit_start by lia. rewrite E. replace n with (length knots - 1)%nat by lia. reflexivity.
  - destruct (traj_charge 3 D segs ltac:(lia) N1 Ns (t - first)) as (i & L & Hi).
    { rewrite fit_start by lia. replace n with (length knots - 1)%nat by lia. lra. }
    destruct (half_open 3 D segs ltac:(lia) N1 Ns fit_positive Hsegs i (t - first) L Hi) as (-> & -> & _). auto.
Qed.
End Fitted.

(** ** C113 *)

(** The order 3 spline through samples of a function whose velocity changes by at most [A] per second,
    with its velocities at both ends. *)
Theorem C113_second : forall (solve : solver R) c knots f f1 A h,
  exact_solver solve -> valid_knots knots (map f knots) -> spaced h knots ->
  derives f f1 (nth 0 knots 0) (nth (length knots - 1) knots 0) -> steady A f1 (nth 0 knots 0) (nth (length knots - 1) knots 0) ->
  exists r, set_data4 solve 3 c knots (map f knots) (f1 (nth 0 knots 0)) (f1 (nth (length knots - 1) knots 0)) = Ok (true, r) /\
    forall t, nth 0 knots 0 <= t <= nth (length knots - 1) knots 0 ->
      exists p v, get_position_at_time 3 r (t - nth 0 knots 0) = Ok p /\ get_velocity_at_time 3 r (t - nth 0 knots 0) = Ok v /\
        Rabs (p - f t) <= 5 / 8 * A * (h * h) /\ Rabs (v - f1 t) <= 5 / 3 * A * h.
Proof.
  intros solve c knots f f1 A h Hs Hv Hh D1 HA.
  destruct (set_data4_stores solve 3 c knots (map f knots) (f1 (nth 0 knots 0)) (f1 (nth (length knots - 1) knots 0)) Hs ltac:(lia) Hv) as (segs & Sg & G & E).
  eexists. split; [exact E|]. intros t Ht.
  destruct (fit_defined knots f segs Hv Sg t Ht) as [P V]. do 2 eexists. split; [exact P|]. split; [exact V|].
  eapply fit_first; eauto.
Qed.

(** The order 3 spline through samples of a function whose fourth derivative is bounded by [M]: of fourth
    order in the largest distance of neighbouring knots, which need not be regular. *)
Theorem C113_fourth : forall (solve : solver R) c knots f f1 f2 f3 f4 M h,
  exact_solver solve -> valid_knots knots (map f knots) -> spaced h knots ->
  derives f f1 (nth 0 knots 0) (nth (length knots - 1) knots 0) -> derives f1 f2 (nth 0 knots 0) (nth (length knots - 1) knots 0) ->
  derives f2 f3 (nth 0 knots 0) (nth (length knots - 1) knots 0) -> derives f3 f4 (nth 0 knots 0) (nth (length knots - 1) knots 0) ->
  (forall t, nth 0 knots 0 <= t <= nth (length knots - 1) knots 0 -> Rabs (f4 t) <= M) ->
  exists r, set_data4 solve 3 c knots (map f knots) (f1 (nth 0 knots 0)) (f1 (nth (length knots - 1) knots 0)) = Ok (true, r) /\
    (forall t, nth 0 knots 0 <= t <= nth (length knots - 1) knots 0 ->
      exists p v, get_position_at_time 3 r (t - nth 0 knots 0) = Ok p /\ get_velocity_at_time 3 r (t - nth 0 knots 0) = Ok v /\
        Rabs (p - f t) <= 5 / 384 * M * h ^ 4 /\ Rabs (v - f1 t) <= M * h ^ 3 / 15) /\
    (forall t, In t knots -> exists v, get_velocity_at_time 3 r (t - nth 0 knots 0) = Ok v /\ Rabs (v - f1 t) <= M * h ^ 3 / 24).
Proof.
  intros solve c knots f f1 f2 f3 f4 M h Hs Hv Hh D1 D2 D3 D4 HM.
  destruct (set_data4_stores solve 3 c knots (map f knots) (f1 (nth 0 knots 0)) (f1 (nth (length knots - 1) knots 0)) Hs ltac:(lia) Hv) as (segs & Sg & G & E).
  eexists. split; [exact E|]. replace (h ^ 4) with (h * h * (h * h)) by ring. replace (h ^ 3) with (h * h * h) by ring. split.
  - intros t Ht. destruct (fit_defined knots f segs Hv Sg t Ht) as [P V]. do 2 eexists. split; [exact P|]. split; [exact V|].
    destruct (fit_fourth knots f f1 segs h Hv Sg G Hh D1 f2 f3 f4 M t D2 D3 D4 HM Ht) as (X & Y & _). auto.
  - intros t Ht. destruct (In_nth _ _ 0 Ht) as (i & Li & Ei). pose proof (diffs_length knots) as Ld.
    assert (Hi : (i <= length (diffs knots))%nat) by lia. pose proof (fit_range knots f Hv i Hi) as Hr. rewrite Ei in Hr.
    destruct (fit_defined knots f segs Hv Sg t Hr) as [_ V]. eexists. split; [exact V|].
    destruct (fit_fourth knots f f1 segs h Hv Sg G Hh D1 f2 f3 f4 M t D2 D3 D4 HM Hr) as (_ & _ & Z). specialize (Z i Hi). now rewrite Ei in Z.
Qed.

(** The same for scalar curves of order 3, whose times are absolute; the accelerations given at the ends
    are not used. *)
Theorem C113_curve : forall (solve : solver R) sc times f f1 a0 aT h,
  exact_solver solve -> valid_knots times (map f times) -> spaced h times ->
  derives f f1 (nth 0 times 0) (nth (length times - 1) times 0) ->
  exists sc', sc_fit_boundary solve 3 sc times (map f times) (f1 (nth 0 times 0)) a0 (f1 (nth (length times - 1) times 0)) aT = Ok sc' /\
    forall t old, nth 0 times 0 <= t <= nth (length times - 1) times 0 ->
      exists p v, sc_evaluate 3 sc' t = Ok (true, p) /\ sc_evaluate_derivative 3 sc' old t 1 = Ok (true, v) /\
        (forall A, steady A f1 (nth 0 times 0) (nth (length times - 1) times 0) ->
           Rabs (p - f t) <= 5 / 8 * A * h ^ 2 /\ Rabs (v - f1 t) <= 5 / 3 * A * h) /\
        (forall f2 f3 f4 M, derives f1 f2 (nth 0 times 0) (nth (length times - 1) times 0) ->
           derives f2 f3 (nth 0 times 0) (nth (length times - 1) times 0) -> derives f3 f4 (nth 0 times 0) (nth (length times - 1) times 0) ->
           (forall t, nth 0 times 0 <= t <= nth (length times - 1) times 0 -> Rabs (f4 t) <= M) ->
           Rabs (p - f t) <= 5 / 384 * M * h ^ 4 /\ Rabs (v - f1 t) <= M * h ^ 3 / 15).
Proof.
  intros solve sc times f f1 a0 aT h Hs Hv Hh D1.
  destruct (set_data4_stores solve 3 (sc_container sc) times (map f times) (f1 (nth 0 times 0)) (f1 (nth (length times - 1) times 0)) Hs ltac:(lia) Hv)
    as (segs & Sg & G & E).
  pose proof Hv as (H2 & _ & _ & Hsm).
  rewrite <- (set_data6_drops solve 3 (sc_container sc) times (map f times) (f1 (nth 0 times 0)) a0 (f1 (nth (length times - 1) times 0)) aT) in E by (try lia; exact Hsm).
  eexists. split; [apply (fit_container _ _ _ _ _ _ _ _ _ true _ (valid_nonempty _ _ Hv) E)|]. intros t old Ht.
  destruct (fit_defined times f segs Hv Sg t Ht) as [P V]. do 2 eexists.
  unfold sc_evaluate, sc_evaluate_derivative. cbn [sc_container sc_min Z.eqb Pos.eqb]. numR. rewrite P, V. cbn [bind].
  split; [reflexivity|]. split; [reflexivity|]. split.
  - intros A HA. replace (h ^ 2) with (h * h) by ring. eapply fit_first; eauto.
  - intros f2 f3 f4 M D2 D3 D4 HM. replace (h ^ 4) with (h * h * (h * h)) by ring. replace (h ^ 3) with (h * h * h) by ring.
    destruct (fit_fourth times f f1 segs h Hv Sg G Hh D1 f2 f3 f4 M t D2 D3 D4 HM Ht) as (X & Y & _). auto.
Qed.

(** Samples of the sine at irregular times. *)
Definition sine_times : list R := [0; 1 / 2; 3 / 2; 2].

Lemma sine_valid : valid_knots sine_times (map sin sine_times) /\ spaced 1 sine_times.
Proof.
  split; [split; [cbn; lia|split; [|split; [reflexivity|cbn; lia]]]|].
  - intros [|[|[|i]]] L; cbn in *; try lra; lia.
  - intros [|[|[|i]]] L; cbn in *; try lra; lia.
Qed.

Lemma sine_derives lo hi : derives sin cos lo hi /\ derives cos (fun t => - sin t) lo hi /\ derives (fun t => - sin t) (fun t => - cos t) lo hi /\
  derives (fun t => - cos t) sin lo hi.
Proof.
  split; [|split; [|split]]; intros t _.
  - apply derivable_pt_lim_sin.
  - apply derivable_pt_lim_cos.
  - apply (derivable_pt_lim_opp sin). apply derivable_pt_lim_sin.
  - rewrite <- (Ropp_involutive (sin t)). apply (derivable_pt_lim_opp cos). apply derivable_pt_lim_cos.
Qed.

Example C113_example : exists r, set_data4 pivoted 3 c_new sine_times (map sin sine_times) (cos 0) (cos 2) = Ok (true, r) /\
  forall t, 0 <= t <= 2 -> exists p v, get_position_at_time 3 r t = Ok p /\ get_velocity_at_time 3 r t = Ok v /\
    Rabs (p - sin t) <= 5 / 384 /\ Rabs (v - cos t) <= 1 / 15.
Proof.
  destruct sine_valid as [Hv Hh]. destruct (sine_derives 0 2) as (D1 & D2 & D3 & D4).
  destruct (C113_fourth pivoted c_new sine_times sin cos (fun t => - sin t) (fun t => - cos t) sin 1 1 (proj1 C100_solver) Hv Hh D1 D2 D3 D4) as (r & E & A & _).
  { intros t _. apply Rabs_le. pose proof (SIN_bound t). lra. }
  exists r. split; [exact E|]. intros t Ht. destruct (A t Ht) as (p & v & P & V & X & Y). exists p, v.
  cbn [nth sine_times] in P, V. rewrite Rminus_0_r in P, V. split; [exact P|]. split; [exact V|]. split; lra.
Qed.

Example C113_second_example : steady 1 cos 0 2.
Proof.
  intros s t _ _. destruct (MVT_abs cos (fun x => - sin x) t s) as (x & E & _).
  { intros x _. apply derivable_pt_lim_cos. }
  rewrite E. apply Rmult_le_compat_r; [apply Rabs_pos|]. rewrite Rabs_Ropp. apply Rabs_le. pose proof (SIN_bound x). lra.
Qed.
