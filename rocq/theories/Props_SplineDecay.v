(** * C117: what a change of the data does to a spline far away *)

From Coq Require Import List Bool Arith NArith ZArith Reals Lra Lia Psatz.
From Verif Require Import Base Num TimeInst Spline SplineSpec LinSpec SplineProofs
  Container ContainerSpec ContainerProofs SetDataSpec SetDataSys SetDataProofs SetDataExist SetDataTraj SetDataTop
  SetDataUnique SetDataEnergy Props_SetData SplineCurves Props_SplineCurves HermiteE3Proofs ColPiv Props_ColPiv
  Props_SplineRate.
Import ListNotations.
Local Open Scope R_scope.

(** ** Specification *)

(** The lists differ at most at place j. *)
Definition agree_but (j : nat) (ys zs : list R) : Prop := forall k, k <> j -> nth k ys 0 = nth k zs 0.

(** Number of places between i and j. *)
Definition apart (i j : nat) : nat := (i - j) + (j - i).

(** ** Solutions of a diagonally dominant recurrence *)

Section Decay.
Variables (a b m : nat -> R).

Lemma decay_step A B x y z : 0 < A -> 0 < B -> A * x + 2 * (A + B) * y + B * z = 0 -> Rabs x <= Rabs y / 2 -> Rabs y <= Rabs z / 2.
Proof.
  intros PA PB E X. assert (Y : 2 * (A + B) * Rabs y <= A * Rabs x + B * Rabs z).
  { rewrite <- (Rabs_pos_eq A) at 2 by lra. rewrite <- (Rabs_pos_eq B) at 2 by lra. rewrite <- !Rabs_mult.
    replace (2 * (A + B) * Rabs y) with (Rabs (A * x + B * z)); [apply Rabs_triang|].
    replace (A * x + B * z) with (- (2 * (A + B) * y)) by lra. rewrite Rabs_Ropp, Rabs_mult, (Rabs_pos_eq (2 * (A + B))) by lra. reflexivity. }
  pose proof (Rmult_le_compat_l A _ _ ltac:(lra) X) as Q. apply (Rmult_le_reg_l (2 * B)); [lra|].
  pose proof (Rmult_le_pos A (Rabs y) ltac:(lra) (Rabs_pos y)). lra.
Qed.

Lemma decay_up k : m 0%nat = 0 -> (forall i, (1 <= i < k)%nat -> 0 < a i /\ 0 < b i /\ a i * m (i - 1)%nat + 2 * (a i + b i) * m i + b i * m (i + 1)%nat = 0) ->
  forall i, (i < k)%nat -> Rabs (m i) <= Rabs (m (i + 1)%nat) / 2.
Proof.
  intros Z H. induction i as [|i IH]; intros L.
  - rewrite Z, Rabs_R0. pose proof (Rabs_pos (m (0 + 1)%nat)). lra.
  - destruct (H (S i) ltac:(lia)) as (PA & PB & E). replace (S i - 1)%nat with i in E by lia.
    apply (decay_step _ _ (m i) _ _ PA PB E). rewrite <- Nat.add_1_r. apply IH. lia.
Qed.

Lemma halves k : (forall i, (i < k)%nat -> Rabs (m i) <= Rabs (m (i + 1)%nat) / 2) ->
  forall i, (i <= k)%nat -> Rabs (m i) <= Rabs (m k) / 2 ^ (k - i).
Proof.
  intros H i L. remember (k - i)%nat as d eqn:Ed. revert i L Ed. induction d as [|d IH]; intros i L Ed.
  - replace i with k by lia. cbn. lra.
  - pose proof (H i ltac:(lia)) as Q. specialize (IH (i + 1)%nat ltac:(lia) ltac:(lia)).
    assert (P : 0 < 2 ^ d) by (apply pow_lt; lra). replace (Rabs (m k) / 2 ^ S d) with (Rabs (m k) / 2 ^ d / 2) by (cbn; field; lra). lra.
Qed.
End Decay.

(** From the far end of n + 1 places, where m vanishes, down to place l. *)
Lemma decay_down (a b m : nat -> R) n l : (l <= n)%nat -> m n = 0 ->
  (forall i, (l < i < n)%nat -> 0 < a i /\ 0 < b i /\ a i * m (i - 1)%nat + 2 * (a i + b i) * m i + b i * m (i + 1)%nat = 0) ->
  forall i, (l <= i <= n)%nat -> Rabs (m i) <= Rabs (m l) / 2 ^ (i - l).
Proof.
  intros Ll Z H i L.
  pose proof (decay_up (fun k => b (n - k)%nat) (fun k => a (n - k)%nat) (fun k => m (n - k)%nat) (n - l)) as Q. cbn beta in Q.
  rewrite Nat.sub_0_r in Q. specialize (Q Z).
  assert (W : forall k, (1 <= k < n - l)%nat -> 0 < b (n - k)%nat /\ 0 < a (n - k)%nat /\
    b (n - k)%nat * m (n - (k - 1))%nat + 2 * (b (n - k)%nat + a (n - k)%nat) * m (n - k)%nat + a (n - k)%nat * m (n - (k + 1))%nat = 0).
  { intros k Lk. destruct (H (n - k)%nat ltac:(lia)) as (PA & PB & E). split; [exact PB|]. split; [exact PA|].
    replace (n - k - 1)%nat with (n - (k + 1))%nat in E by lia. replace (n - k + 1)%nat with (n - (k - 1))%nat in E by lia. lra. }
  specialize (Q W). pose proof (halves (fun k => m (n - k)%nat) (n - l) Q (n - i) ltac:(lia)) as V. cbn beta in V.
  replace (n - (n - i))%nat with i in V by lia. replace (n - (n - l))%nat with l in V by lia. replace (n - l - (n - i))%nat with (i - l)%nat in V by lia. exact V.
Qed.

(** ** Any data are samples of some function *)

Lemma increasing_lt knots i j : increasing knots -> (i < j < length knots)%nat -> nth i knots 0 < nth j knots 0.
Proof.
  intros I [L U]. induction L as [|j L IH].
  - rewrite <- Nat.add_1_r. apply I. lia.
  - specialize (IH ltac:(lia)). pose proof (I j ltac:(lia)) as Q. rewrite Nat.add_1_r in Q. lra.
Qed.

Lemma samples_of (knots ys : list R) : increasing knots -> length ys = length knots -> exists f : R -> R, map f knots = ys.
Proof.
  intros I. assert (N : NoDup knots).
  { apply (NoDup_nth knots 0). intros i j Li Lj E. destruct (lt_eq_lt_dec i j) as [[Q|Q]|Q]; [|exact Q|].
    - pose proof (increasing_lt knots i j I ltac:(lia)). lra.
    - pose proof (increasing_lt knots j i I ltac:(lia)). lra. }
  clear I. revert ys. induction N as [|x l Nx N IH]; intros [|y ys] L; try discriminate; [now exists (fun _ => 0)|].
  destruct (IH ys ltac:(injection L; auto)) as (f & Ef). exists (fun t => if Req_EM_T t x then y else f t). cbn.
  destruct (Req_EM_T x x) as [_|Q]; [|congruence]. f_equal. rewrite <- Ef. apply map_ext_in. intros t Ht.
  destruct (Req_EM_T t x) as [->|_]; [contradiction|reflexivity].
Qed.

Lemma ends_of knots v0 vT : increasing knots -> (2 <= length knots)%nat -> exists f1 : R -> R, f1 (nth 0 knots 0) = v0 /\ f1 (nth (length knots - 1) knots 0) = vT.
Proof.
  intros I L. pose proof (increasing_lt knots 0 (length knots - 1) I ltac:(lia)) as Q.
  exists (fun t => if Req_EM_T t (nth 0 knots 0) then v0 else vT).
  destruct (Req_EM_T (nth 0 knots 0) (nth 0 knots 0)) as [_|Y]; [|congruence].
  destruct (Req_EM_T (nth (length knots - 1) knots 0) (nth 0 knots 0)) as [Y|_]; [lra|auto].
Qed.

(** ** Two fits *)

Section Two.
Variables (knots : list R) (f g f1 g1 : R -> R) (segs segs' : list (list R)).
Hypothesis Hv : valid_knots knots (map f knots).
Hypothesis Hw : valid_knots knots (map g knots).
Local Notation D := (diffs knots).
Local Notation n := (length (diffs knots)).
Local Notation T i := (nth i knots 0).
Local Notation first := (nth 0 knots 0).
Local Notation last := (nth (length knots - 1) knots 0).
Hypothesis Hsegs : segments 3 n segs.
Hypothesis Hgood : good 3 n D (map f knots) [f1 first] [f1 last] segs.
Hypothesis Hsegs' : segments 3 n segs'.
Hypothesis Hgood' : good 3 n D (map g knots) [g1 first] [g1 last] segs'.
Local Notation c := (holding (splines_of segs D)).
Local Notation c' := (holding (splines_of segs' D)).

(** Not in the source: differences of the velocities and of the samples at a knot; reciprocal of a step. *)
Definition dv (i : nat) : R := slope_at knots segs i - slope_at knots segs' i.
Definition dy (i : nat) : R := f (T i) - g (T i).
Definition rec (i : nat) : R := / (T (i + 1) - T i).

Lemma two_n : length knots = (n + 1)%nat /\ (1 <= n)%nat.
Proof. destruct (fit_n knots f Hv) as (A & B & _). auto. Qed.

Lemma two_order i : (i < n)%nat -> T i < T (i + 1).
Proof. intros L. apply Hv. destruct two_n. lia. Qed.

Lemma rec_pos i : (i < n)%nat -> 0 < rec i.
Proof. intros L. apply Rinv_0_lt_compat. pose proof (two_order i L). lra. Qed.

Lemma two_junction i : (1 <= i < n)%nat ->
  rec (i - 1) * dv (i - 1) + 2 * (rec (i - 1) + rec i) * dv i + rec i * dv (i + 1) =
  3 * ((dy i - dy (i - 1)) * (rec (i - 1) * rec (i - 1)) + (dy (i + 1) - dy i) * (rec i * rec i)).
Proof.
  intros L. pose proof (fit_smooth knots f f1 segs Hv Hsegs Hgood (i - 1) ltac:(lia)) as A.
  pose proof (fit_smooth knots g g1 segs' Hw Hsegs' Hgood' (i - 1) ltac:(lia)) as B.
  replace (i - 1 + 1)%nat with i in * by lia. replace (i - 1 + 2)%nat with (i + 1)%nat in * by lia.
  unfold dv, dy, rec. replace (i - 1 + 1)%nat with i by lia. unfold Rdiv in A, B.
  set (u := / (T i - T (i - 1))) in *. set (w := / (T (i + 1) - T i)) in *. lra.
Qed.

Lemma two_ends : dv 0 = f1 first - g1 first /\ dv n = f1 last - g1 last.
Proof.
  unfold dv. destruct (fit_ends knots f f1 segs Hv Hsegs Hgood) as [-> ->]. destruct (fit_ends knots g g1 segs' Hw Hsegs' Hgood') as [-> ->].
  destruct two_n as [E _]. split; [reflexivity|]. replace (length knots - 1)%nat with n by lia. reflexivity.
Qed.

Lemma two_position i t : (i < n)%nat -> T i <= t <= T (i + 1) ->
  Rabs (position 3 c (t - first) - position 3 c' (t - first)) <=
    Rmax (Rabs (dy i)) (Rabs (dy (i + 1))) + (T (i + 1) - T i) / 4 * Rmax (Rabs (dv i)) (Rabs (dv (i + 1))).
Proof.
  intros L Ht. pose proof (two_order i L) as O.
  destruct (fit_hermite knots f f1 segs Hv Hsegs Hgood i t L Ht) as [-> _]. destruct (fit_hermite knots g g1 segs' Hw Hsegs' Hgood' i t L Ht) as [-> _].
  unfold hval. cbv zeta. set (d := T (i + 1) - T i). set (x := (t - T i) / d). assert (Pd : 0 < d) by (unfold d; lra).
  assert (Et : t - T i = x * d) by (unfold x; field; lra).
  assert (X : 0 <= x <= 1) by (split; apply (Rmult_le_reg_r d); unfold d in *; lra).
  set (Y := Rmax (Rabs (dy i)) (Rabs (dy (i + 1)))). set (V := Rmax (Rabs (dv i)) (Rabs (dv (i + 1)))).
  assert (Y0 : Rabs (dy i) <= Y) by apply Rmax_l. assert (Y1 : Rabs (dy (i + 1)) <= Y) by apply Rmax_r.
  assert (V0 : Rabs (dv i) <= V) by apply Rmax_l. assert (V1 : Rabs (dv (i + 1)) <= V) by apply Rmax_r.
  set (w := 3 * (x * x) - 2 * (x * x * x)). assert (W : 0 <= w <= 1).
  { pose proof (Rmult_le_pos (x * x) (3 - 2 * x) (Rle_0_sqr x) ltac:(lra)). pose proof (Rmult_le_pos ((1 - x) * (1 - x)) (1 + 2 * x) (Rle_0_sqr (1 - x)) ltac:(lra)).
    unfold w. lra. }
  assert (A0 : 0 <= x * ((1 - x) * (1 - x)) * d) by (apply Rmult_le_pos; [apply Rmult_le_pos; [lra|apply Rle_0_sqr]|lra]).
  assert (A1 : 0 <= x * x * (1 - x) * d) by (apply Rmult_le_pos; [apply Rmult_le_pos; [apply Rle_0_sqr|lra]|lra]).
  match goal with |- Rabs ?z <= _ => replace z with ((1 - w) * dy i + w * dy (i + 1) + (x * ((1 - x) * (1 - x)) * d * dv i + - (x * x * (1 - x) * d * dv (i + 1)))) by (unfold w, dy, dv; ring) end.
  eapply Rle_trans; [apply Rabs_triang|]. apply Rplus_le_compat.
  - eapply Rle_trans; [apply Rabs_triang|]. rewrite !Rabs_mult, (Rabs_pos_eq (1 - w)), (Rabs_pos_eq w) by lra.
    pose proof (Rmult_le_compat_l (1 - w) _ _ ltac:(lra) Y0). pose proof (Rmult_le_compat_l w _ _ ltac:(lra) Y1). lra.
  - eapply Rle_trans; [apply Rabs_triang|]. rewrite Rabs_Ropp, !(Rabs_mult _ (dv _)), (Rabs_pos_eq _ A0), (Rabs_pos_eq _ A1).
    pose proof (Rmult_le_compat_l _ _ _ A0 V0) as Q0. pose proof (Rmult_le_compat_l _ _ _ A1 V1) as Q1.
    assert (PV : 0 <= V) by (eapply Rle_trans; [apply Rabs_pos|exact V0]).
    assert (0 <= V * d * ((1 - 2 * x) * (1 - 2 * x))) by (apply Rmult_le_pos; [apply Rmult_le_pos; lra|apply Rle_0_sqr]). lra.
Qed.

End Two.

(** Not in the source: the differences [e] of the velocities at the knots of two fits, of the samples [y],
    and what the recurrence says about them. *)
Definition compared (knots : list R) (r r' : container R) (y e : nat -> R) : Prop :=
  (forall i, (1 <= i < length knots - 1)%nat ->
     rec knots (i - 1) * e (i - 1)%nat + 2 * (rec knots (i - 1) + rec knots i) * e i + rec knots i * e (i + 1)%nat =
     3 * ((y i - y (i - 1)%nat) * (rec knots (i - 1) * rec knots (i - 1)) + (y (i + 1)%nat - y i) * (rec knots i * rec knots i))) /\
  (forall i, (i < length knots)%nat -> exists v v',
     get_velocity_at_time 3 r (nth i knots 0 - nth 0 knots 0) = Ok v /\ get_velocity_at_time 3 r' (nth i knots 0 - nth 0 knots 0) = Ok v' /\ v - v' = e i) /\
  (forall i t, (i + 1 < length knots)%nat -> nth i knots 0 <= t <= nth (i + 1) knots 0 -> exists p p',
     get_position_at_time 3 r (t - nth 0 knots 0) = Ok p /\ get_position_at_time 3 r' (t - nth 0 knots 0) = Ok p' /\
     Rabs (p - p') <= Rmax (Rabs (y i)) (Rabs (y (i + 1)%nat)) + (nth (i + 1) knots 0 - nth i knots 0) / 4 * Rmax (Rabs (e i)) (Rabs (e (i + 1)%nat))).

Lemma two_fits (solve : solver R) c c' knots ys zs v0 w0 vT wT : exact_solver solve -> valid_knots knots ys -> valid_knots knots zs ->
  exists r r' e, set_data4 solve 3 c knots ys v0 vT = Ok (true, r) /\ set_data4 solve 3 c' knots zs w0 wT = Ok (true, r') /\
    e 0%nat = v0 - w0 /\ e (length knots - 1)%nat = vT - wT /\ compared knots r r' (fun i => nth i ys 0 - nth i zs 0) e.
Proof.
  intros Hs Hv Hw. pose proof Hv as (L2 & Hi & Ly & _). pose proof Hw as (_ & _ & Lz & _).
  destruct (samples_of knots ys Hi Ly) as (f & <-). destruct (samples_of knots zs Hi Lz) as (g & <-).
  destruct (ends_of knots v0 vT Hi L2) as (f1 & <- & <-). destruct (ends_of knots w0 wT Hi L2) as (g1 & <- & <-).
  destruct (set_data4_stores solve 3 c knots (map f knots) (f1 (nth 0 knots 0)) (f1 (nth (length knots - 1) knots 0)) Hs ltac:(lia) Hv) as (segs & Sg & Gd & E).
  destruct (set_data4_stores solve 3 c' knots (map g knots) (g1 (nth 0 knots 0)) (g1 (nth (length knots - 1) knots 0)) Hs ltac:(lia) Hw) as (segs' & Sg' & Gd' & E').
  destruct (two_n knots f Hv) as [En N1]. destruct (two_ends knots f g f1 g1 segs segs' Hv Hw Sg Gd Sg' Gd') as [Z0 Zn].
  do 2 eexists. exists (dv knots segs segs'). split; [exact E|]. split; [exact E'|]. clear E E'.
  split; [exact Z0|]. split; [replace (length knots - 1)%nat with (length (diffs knots)) at 1 by lia; exact Zn|].
  assert (Y : forall i, (i < length knots)%nat -> nth i (map f knots) 0 - nth i (map g knots) 0 = dy knots f g i).
  { intros i L. unfold dy. rewrite (fit_sample knots f Hv), (fit_sample knots g Hw) by lia. reflexivity. }
  split; [|split].
  - intros i L. rewrite !Y by lia. apply (two_junction knots f g f1 g1 segs segs' Hv Hw Sg Gd Sg' Gd'). lia.
  - intros i L. pose proof (fit_range knots f Hv i ltac:(lia)) as Rg.
    destruct (fit_defined knots f segs Hv Sg _ Rg) as [_ V]. destruct (fit_defined knots g segs' Hw Sg' _ Rg) as [_ V'].
    do 2 eexists. split; [exact V|]. split; [exact V'|]. reflexivity.
  - intros i t L Ht. pose proof (fit_range knots f Hv i ltac:(lia)) as R0. pose proof (fit_range knots f Hv (i + 1) ltac:(lia)) as R1.
    assert (Rg : nth 0 knots 0 <= t <= nth (length knots - 1) knots 0) by lra.
    destruct (fit_defined knots f segs Hv Sg _ Rg) as [P _]. destruct (fit_defined knots g segs' Hw Sg' _ Rg) as [P' _].
    do 2 eexists. split; [exact P|]. split; [exact P'|]. rewrite !Y by lia.
    apply (two_position knots f g f1 g1 segs segs' Hv Hw Sg Gd Sg' Gd' i t); [lia|exact Ht].
Qed.

Section Compared.
Variables (knots : list R) (y e : nat -> R).
Hypothesis Hi : increasing knots.
Hypothesis L2 : (2 <= length knots)%nat.
Local Notation n := (length knots - 1)%nat.
Hypothesis Hj : forall i, (1 <= i < n)%nat ->
     rec knots (i - 1) * e (i - 1)%nat + 2 * (rec knots (i - 1) + rec knots i) * e i + rec knots i * e (i + 1)%nat =
     3 * ((y i - y (i - 1)%nat) * (rec knots (i - 1) * rec knots (i - 1)) + (y (i + 1)%nat - y i) * (rec knots i * rec knots i)).

Lemma step_pos i : (i < n)%nat -> 0 < nth (i + 1) knots 0 - nth i knots 0 /\ 0 < rec knots i.
Proof. intros L. pose proof (Hi i ltac:(lia)). split; [lra|]. apply Rinv_0_lt_compat. lra. Qed.

(** Where the data agree. *)
Lemma free i : (1 <= i < n)%nat -> y (i - 1)%nat = 0 -> y i = 0 -> y (i + 1)%nat = 0 ->
  0 < rec knots (i - 1) /\ 0 < rec knots i /\
  rec knots (i - 1) * e (i - 1)%nat + 2 * (rec knots (i - 1) + rec knots i) * e i + rec knots i * e (i + 1)%nat = 0.
Proof.
  intros L A B C. split; [apply step_pos; lia|]. split; [apply step_pos; lia|]. rewrite Hj by exact L. rewrite A, B, C. ring.
Qed.

Lemma largest_change B : 0 <= B -> e 0%nat = 0 -> e n = 0 ->
  (forall i, (1 <= i < n)%nat ->
     Rabs (3 * ((y i - y (i - 1)%nat) * (rec knots (i - 1) * rec knots (i - 1)) + (y (i + 1)%nat - y i) * (rec knots i * rec knots i))) <= (rec knots (i - 1) + rec knots i) * B) ->
  forall i, (i <= n)%nat -> Rabs (e i) <= B.
Proof.
  intros PB Z0 Zn H i Li. destruct (largest e n) as (j & Lj & Kj). eapply Rle_trans; [apply Kj; exact Li|]. clear i Li.
  destruct (Nat.eq_dec j 0) as [->|J0]; [rewrite Z0, Rabs_R0; exact PB|]. destruct (Nat.eq_dec j n) as [->|Jn]; [rewrite Zn, Rabs_R0; exact PB|].
  specialize (H j ltac:(lia)). rewrite <- Hj in H by lia. destruct (step_pos (j - 1) ltac:(lia)) as [_ P1]. destruct (step_pos j ltac:(lia)) as [_ P2].
  set (A := rec knots (j - 1)) in *. set (C := rec knots j) in *.
  pose proof (Kj (j - 1)%nat ltac:(lia)) as K1. pose proof (Kj (j + 1)%nat ltac:(lia)) as K2.
  assert (W : 2 * (A + C) * Rabs (e j) <= Rabs (A * e (j - 1)%nat + 2 * (A + C) * e j + C * e (j + 1)%nat) + (A * Rabs (e (j - 1)%nat) + C * Rabs (e (j + 1)%nat))).
  { assert (M1 : A * Rabs (e (j - 1)%nat) = Rabs (A * e (j - 1)%nat)) by (rewrite Rabs_mult, (Rabs_pos_eq A) by lra; reflexivity).
    assert (M2 : C * Rabs (e (j + 1)%nat) = Rabs (C * e (j + 1)%nat)) by (rewrite Rabs_mult, (Rabs_pos_eq C) by lra; reflexivity).
    assert (M3 : 2 * (A + C) * Rabs (e j) = Rabs (2 * (A + C) * e j)) by (rewrite Rabs_mult, (Rabs_pos_eq (2 * (A + C))) by lra; reflexivity).
    rewrite M1, M2, M3. set (S := A * e (j - 1)%nat + 2 * (A + C) * e j + C * e (j + 1)%nat).
    replace (2 * (A + C) * e j) with (S - (A * e (j - 1)%nat + C * e (j + 1)%nat)) by (unfold S; ring).
    eapply Rle_trans; [apply Rabs_triang|]. rewrite Rabs_Ropp. apply Rplus_le_compat_l, Rabs_triang. }
  pose proof (Rmult_le_compat_l A _ _ ltac:(lra) K1). pose proof (Rmult_le_compat_l C _ _ ltac:(lra) K2).
  apply (Rmult_le_reg_l (A + C)); lra.
Qed.

(** Beyond place j + 1 and before place j - 1. *)
Lemma after j l : (forall k, k <> j -> y k = 0) -> (j < l <= n)%nat -> e n = 0 -> forall i, (l <= i <= n)%nat -> Rabs (e i) <= Rabs (e l) / 2 ^ (i - l).
Proof.
  intros Y L Zn i Li. apply (decay_down (fun k => rec knots (k - 1)) (rec knots) e n l); [lia|exact Zn| |lia].
  intros k Lk. apply free; [lia| | |]; apply Y; lia.
Qed.

Lemma before j l : (forall k, k <> j -> y k = 0) -> (l < j)%nat -> (l <= n)%nat -> e 0%nat = 0 -> forall i, (i <= l)%nat -> Rabs (e i) <= Rabs (e l) / 2 ^ (l - i).
Proof.
  intros Y L Ln Z0 i Li. apply (halves e l); [|exact Li].
  apply (decay_up (fun k => rec knots (k - 1)) (rec knots) e l Z0). intros k Lk. apply free; [lia| | |]; apply Y; lia.
Qed.
End Compared.

Lemma zero_abs x : Rabs x <= 0 -> x = 0.
Proof. intros H. destruct (Req_dec x 0) as [E|E]; [exact E|]. pose proof (Rabs_pos_lt x E). lra. Qed.

Lemma halved x k l : (k <= l)%nat -> Rabs x / 2 ^ l <= Rabs x / 2 ^ k.
Proof.
  intros L. apply Rmult_le_compat_l; [apply Rabs_pos|]. apply Rinv_le_contravar; [apply pow_lt; lra|]. apply Rle_pow; [lra|exact L].
Qed.

(** ** C117 *)

(** Changing the velocity at the start of the fit of a cubic trajectory changes the velocity at each knot by
    at most half of what it changes at the knot before, and positions accordingly; but, except for
    the last one, no knot keeps its velocity. *)
Theorem C117_initial_velocity : forall (solve : solver R) c c' knots ys v0 w0 vT, exact_solver solve -> valid_knots knots ys ->
  exists r r', set_data4 solve 3 c knots ys v0 vT = Ok (true, r) /\ set_data4 solve 3 c' knots ys w0 vT = Ok (true, r') /\
    (forall i, (i < length knots)%nat -> exists v v',
       get_velocity_at_time 3 r (nth i knots 0 - nth 0 knots 0) = Ok v /\ get_velocity_at_time 3 r' (nth i knots 0 - nth 0 knots 0) = Ok v' /\
       Rabs (v - v') <= Rabs (v0 - w0) / 2 ^ i /\ ((i + 1 < length knots)%nat -> v0 <> w0 -> v <> v')) /\
    (forall i t, (i + 1 < length knots)%nat -> nth i knots 0 <= t <= nth (i + 1) knots 0 -> exists p p',
       get_position_at_time 3 r (t - nth 0 knots 0) = Ok p /\ get_position_at_time 3 r' (t - nth 0 knots 0) = Ok p' /\
       Rabs (p - p') <= (nth (i + 1) knots 0 - nth i knots 0) / 4 * (Rabs (v0 - w0) / 2 ^ i)).
Proof.
  intros solve c c' knots ys v0 w0 vT Hs Hv. pose proof Hv as (L2 & Hi & _).
  destruct (two_fits solve c c' knots ys ys v0 w0 vT vT Hs Hv Hv) as (r & r' & e & E & E' & Z0 & Zn & J & V & P).
  exists r, r'. split; [exact E|]. split; [exact E'|]. rewrite Rminus_diag_eq in Zn by reflexivity.
  assert (Fr := fun i L => free knots (fun k => nth k ys 0 - nth k ys 0) e Hi L2 J i L (Rminus_diag_eq _ _ eq_refl) (Rminus_diag_eq _ _ eq_refl) (Rminus_diag_eq _ _ eq_refl)).
  assert (Dc : forall l i, (l <= i <= length knots - 1)%nat -> Rabs (e i) <= Rabs (e l) / 2 ^ (i - l)).
  { intros l i L. apply (decay_down (fun k => rec knots (k - 1)) (rec knots) e (length knots - 1) l); [lia|exact Zn| |exact L]. intros k Lk. apply Fr. lia. }
  split.
  - intros i L. destruct (V i L) as (v & v' & A & A' & Ev). exists v, v'. split; [exact A|]. split; [exact A'|]. rewrite Ev. split.
    + rewrite <- Z0. pose proof (Dc 0%nat i ltac:(lia)) as Q. now rewrite Nat.sub_0_r in Q.
    + intros L' Ne Eq. apply Ne. apply Rminus_diag_uniq. rewrite <- Z0.
      assert (Z : forall k, (k <= i)%nat -> e (i - k)%nat = 0 /\ e (i - k + 1)%nat = 0).
      { induction k as [|k IH]; intros Lk.
        - rewrite Nat.sub_0_r. assert (X : e i = 0) by (rewrite <- Ev; lra). split; [exact X|].
          pose proof (Dc i (i + 1)%nat ltac:(lia)) as Q. rewrite X, Rabs_R0 in Q. unfold Rdiv in Q. rewrite Rmult_0_l in Q.
          pose proof (Rabs_pos (e (i + 1)%nat)). apply zero_abs. lra.
        - destruct (IH ltac:(lia)) as [X0 X1]. destruct (Fr (i - k)%nat ltac:(lia)) as (PA & _ & Eq').
          replace (i - S k + 1)%nat with (i - k)%nat by lia. split; [|exact X0].
          rewrite X0, X1, !Rmult_0_r, !Rplus_0_r in Eq'. replace (i - S k)%nat with (i - k - 1)%nat by lia.
          apply Rmult_integral in Eq'. destruct Eq' as [Q|Q]; [lra|exact Q]. }
      destruct (Z i ltac:(lia)) as [Q _]. now rewrite Nat.sub_diag in Q.
  - intros i t L Ht. destruct (P i t L Ht) as (p & p' & A & A' & B). exists p, p'. split; [exact A|]. split; [exact A'|].
    eapply Rle_trans; [exact B|]. rewrite !Rminus_diag_eq, Rabs_R0, Rmax_left, Rplus_0_l by (reflexivity || lra).
    pose proof (Hi i ltac:(lia)). apply Rmult_le_compat_l; [lra|]. rewrite <- Z0. apply Rmax_lub.
    + pose proof (Dc 0%nat i ltac:(lia)) as Q. now rewrite Nat.sub_0_r in Q.
    + pose proof (Dc 0%nat (i + 1)%nat ltac:(lia)) as Q. rewrite Nat.sub_0_r in Q. eapply Rle_trans; [exact Q|]. apply halved. lia.
Qed.

(** The same for the velocity at the end, going backwards. *)
Theorem C117_final_velocity : forall (solve : solver R) c c' knots ys v0 vT wT, exact_solver solve -> valid_knots knots ys ->
  exists r r', set_data4 solve 3 c knots ys v0 vT = Ok (true, r) /\ set_data4 solve 3 c' knots ys v0 wT = Ok (true, r') /\
    (forall i, (i < length knots)%nat -> exists v v',
       get_velocity_at_time 3 r (nth i knots 0 - nth 0 knots 0) = Ok v /\ get_velocity_at_time 3 r' (nth i knots 0 - nth 0 knots 0) = Ok v' /\
       Rabs (v - v') <= Rabs (vT - wT) / 2 ^ (length knots - 1 - i)) /\
    (forall i t, (i + 1 < length knots)%nat -> nth i knots 0 <= t <= nth (i + 1) knots 0 -> exists p p',
       get_position_at_time 3 r (t - nth 0 knots 0) = Ok p /\ get_position_at_time 3 r' (t - nth 0 knots 0) = Ok p' /\
       Rabs (p - p') <= (nth (i + 1) knots 0 - nth i knots 0) / 4 * (Rabs (vT - wT) / 2 ^ (length knots - 2 - i))).
Proof.
  intros solve c c' knots ys v0 vT wT Hs Hv. pose proof Hv as (L2 & Hi & _).
  destruct (two_fits solve c c' knots ys ys v0 v0 vT wT Hs Hv Hv) as (r & r' & e & E & E' & Z0 & Zn & J & V & P).
  exists r, r'. split; [exact E|]. split; [exact E'|]. rewrite Rminus_diag_eq in Z0 by reflexivity.
  assert (Fr := fun i L => free knots (fun k => nth k ys 0 - nth k ys 0) e Hi L2 J i L (Rminus_diag_eq _ _ eq_refl) (Rminus_diag_eq _ _ eq_refl) (Rminus_diag_eq _ _ eq_refl)).
  assert (Dc : forall i, (i <= length knots - 1)%nat -> Rabs (e i) <= Rabs (vT - wT) / 2 ^ (length knots - 1 - i)).
  { intros i L. rewrite <- Zn. apply (halves e (length knots - 1)); [|exact L].
    apply (decay_up (fun k => rec knots (k - 1)) (rec knots) e (length knots - 1) Z0). intros k Lk. apply Fr. lia. }
  split.
  - intros i L. destruct (V i L) as (v & v' & A & A' & Ev). exists v, v'. split; [exact A|]. split; [exact A'|]. rewrite Ev. apply Dc. lia.
  - intros i t L Ht. destruct (P i t L Ht) as (p & p' & A & A' & B). exists p, p'. split; [exact A|]. split; [exact A'|].
    eapply Rle_trans; [exact B|]. rewrite !Rminus_diag_eq, Rabs_R0, Rmax_left, Rplus_0_l by (reflexivity || lra).
    pose proof (Hi i ltac:(lia)). apply Rmult_le_compat_l; [lra|]. apply Rmax_lub.
    + eapply Rle_trans; [apply Dc; lia|]. apply halved. lia.
    + eapply Rle_trans; [apply Dc; lia|]. apply halved. lia.
Qed.

(** Changing one sample: the velocity at a knot changes by at most three times the change over the
    smallest step, halved with every further knot; so do the positions between other knots. *)
Theorem C117_sample : forall (solve : solver R) c c' knots ys zs v0 vT j d, exact_solver solve -> valid_knots knots ys -> length zs = length ys ->
  agree_but j ys zs -> 0 < d -> (forall i, (i + 1 < length knots)%nat -> d <= nth (i + 1) knots 0 - nth i knots 0) ->
  let change := Rabs (nth j ys 0 - nth j zs 0) in
  exists r r', set_data4 solve 3 c knots ys v0 vT = Ok (true, r) /\ set_data4 solve 3 c' knots zs v0 vT = Ok (true, r') /\
    (forall i, (i < length knots)%nat -> exists v v',
       get_velocity_at_time 3 r (nth i knots 0 - nth 0 knots 0) = Ok v /\ get_velocity_at_time 3 r' (nth i knots 0 - nth 0 knots 0) = Ok v' /\
       Rabs (v - v') <= 3 * change / d / 2 ^ (apart i j - 1)) /\
    (forall i t, (i + 1 < length knots)%nat -> nth i knots 0 <= t <= nth (i + 1) knots 0 -> exists p p',
       get_position_at_time 3 r (t - nth 0 knots 0) = Ok p /\ get_position_at_time 3 r' (t - nth 0 knots 0) = Ok p' /\
       Rabs (p - p') <= change * (1 + 3 / 4 * ((nth (i + 1) knots 0 - nth i knots 0) / d)) /\
       (i <> j -> (i + 1)%nat <> j -> Rabs (p - p') <= 3 / 4 * change * ((nth (i + 1) knots 0 - nth i knots 0) / d) / 2 ^ (Nat.min (apart i j) (apart (i + 1) j) - 1))).
Proof.
  intros solve c c' knots ys zs v0 vT j d Hs Hv Lz Ag Pd Hd change. pose proof Hv as (L2 & Hi & Ly & Hsm).
  assert (Hw : valid_knots knots zs) by (split; [exact L2|]; split; [exact Hi|]; split; [lia|exact Hsm]).
  destruct (two_fits solve c c' knots ys zs v0 v0 vT vT Hs Hv Hw) as (r & r' & e & E & E' & Z0 & Zn & J & V & P).
  exists r, r'. split; [exact E|]. split; [exact E'|]. rewrite Rminus_diag_eq in Z0, Zn by reflexivity.
  set (y i := nth i ys 0 - nth i zs 0) in *. assert (Y : forall k, k <> j -> y k = 0) by (intros k Nk; apply Rminus_diag_eq, Ag, Nk).
  assert (Pc : 0 <= change) by apply Rabs_pos.
  assert (Yc : forall k, Rabs (y k) <= change).
  { intros k. destruct (Nat.eq_dec k j) as [->|Nk]; [apply Rle_refl|]. rewrite (Y k Nk), Rabs_R0. exact Pc. }
  assert (Bd : 0 <= 3 * change / d) by (apply Rmult_le_pos; [lra|left; now apply Rinv_0_lt_compat]).
  assert (Rd : forall k, (k + 1 < length knots)%nat -> 0 < rec knots k <= / d).
  { intros k Lk. specialize (Hd k Lk). unfold rec. split; [apply Rinv_0_lt_compat; lra|]. apply Rinv_le_contravar; [exact Pd|exact Hd]. }
  assert (B : forall i, (i <= length knots - 1)%nat -> Rabs (e i) <= 3 * change / d).
  { apply (largest_change knots y e Hi L2 J); [exact Bd|exact Z0|exact Zn|]. intros i L.
    destruct (Rd (i - 1)%nat ltac:(lia)) as [A1 A2]. destruct (Rd i ltac:(lia)) as [C1 C2]. set (A := rec knots (i - 1)) in *. set (C := rec knots i) in *.
    assert (Q : forall x, Rabs x <= change * / d -> Rabs (3 * (A * x)) <= A * (3 * change / d)).
    { intros x Hx. rewrite !Rabs_mult, (Rabs_pos_eq 3), (Rabs_pos_eq A) by lra. pose proof (Rmult_le_compat_l A _ _ ltac:(lra) Hx). unfold Rdiv. lra. }
    assert (Q' : forall x, Rabs x <= change * / d -> Rabs (3 * (C * x)) <= C * (3 * change / d)).
    { intros x Hx. rewrite !Rabs_mult, (Rabs_pos_eq 3), (Rabs_pos_eq C) by lra. pose proof (Rmult_le_compat_l C _ _ ltac:(lra) Hx). unfold Rdiv. lra. }
    assert (K : forall k x, 0 < x <= / d -> Rabs (y k * x) <= change * / d).
    { intros k x [X1 X2]. rewrite Rabs_mult, (Rabs_pos_eq x) by lra. apply Rmult_le_compat; [apply Rabs_pos|lra|apply Yc|exact X2]. }
    replace (3 * ((y i - y (i - 1)%nat) * (A * A) + (y (i + 1)%nat - y i) * (C * C))) with
      (3 * (A * ((y i - y (i - 1)%nat) * A)) + 3 * (C * ((y (i + 1)%nat - y i) * C))) by ring.
    eapply Rle_trans; [apply Rabs_triang|]. rewrite Rmult_plus_distr_r. apply Rplus_le_compat; [apply Q|apply Q'].
    - destruct (Nat.eq_dec i j) as [Ej|Nj].
      + rewrite (Y (i - 1)%nat) by lia. rewrite Rminus_0_r. apply K. lra.
      + rewrite (Y i Nj), Rminus_0_l, Ropp_mult_distr_l_reverse, Rabs_Ropp. apply K. lra.
    - destruct (Nat.eq_dec i j) as [Ej|Nj].
      + rewrite (Y (i + 1)%nat) by lia. rewrite Rminus_0_l, Ropp_mult_distr_l_reverse, Rabs_Ropp. apply K. lra.
      + rewrite (Y i Nj), Rminus_0_r. apply K. lra. }
  assert (Dc : forall i, (i <= length knots - 1)%nat -> Rabs (e i) <= 3 * change / d / 2 ^ (apart i j - 1)).
  { intros i L. unfold apart. assert (W : forall k x, Rabs x <= 3 * change / d -> Rabs x / 2 ^ k <= 3 * change / d / 2 ^ k).
    { intros k x Hx. apply Rmult_le_compat_r; [left; apply Rinv_0_lt_compat, pow_lt; lra|exact Hx]. }
    destruct (lt_eq_lt_dec i j) as [[Q|Q]|Q].
    - destruct (le_lt_dec (j - 1) (length knots - 1)) as [Lj|Lj].
      + eapply Rle_trans; [apply (before knots y e Hi L2 J j (j - 1)%nat Y ltac:(lia) Lj Z0 i ltac:(lia))|].
        replace (i - j + (j - i) - 1)%nat with (j - 1 - i)%nat by lia. apply W, B. lia.
      + assert (Zi : e i = 0).
        { pose proof (before knots y e Hi L2 J j (length knots - 1)%nat Y ltac:(lia) ltac:(lia) Z0 i ltac:(lia)) as H. rewrite Zn, Rabs_R0 in H. unfold Rdiv in H. rewrite Rmult_0_l in H.
          pose proof (Rabs_pos (e i)). apply zero_abs. lra. }
        rewrite Zi, Rabs_R0. apply Rmult_le_pos; [exact Bd|left; apply Rinv_0_lt_compat, pow_lt; lra].
    - subst j. replace (i - i + (i - i) - 1)%nat with 0%nat by lia. replace (3 * change / d / 2 ^ 0) with (3 * change / d) by (cbn; field; lra). apply B, L.
    - eapply Rle_trans; [apply (after knots y e Hi L2 J j (j + 1)%nat Y ltac:(lia) Zn i ltac:(lia))|].
      replace (i - j + (j - i) - 1)%nat with (i - (j + 1))%nat by lia. apply W, B. lia. }
  split.
  - intros i L. destruct (V i L) as (v & v' & A & A' & Ev). exists v, v'. split; [exact A|]. split; [exact A'|]. rewrite Ev. apply Dc. lia.
  - intros i t L Ht. destruct (P i t L Ht) as (p & p' & A & A' & C). exists p, p'. split; [exact A|]. split; [exact A'|].
    change (nth i ys 0 - nth i zs 0) with (y i) in C. change (nth (i + 1) ys 0 - nth (i + 1) zs 0) with (y (i + 1)%nat) in C.
    pose proof (Hi i ltac:(lia)) as O. set (s := nth (i + 1) knots 0 - nth i knots 0) in *. assert (Ps : 0 < s / 4) by (unfold s; lra). split.
    + eapply Rle_trans; [exact C|]. replace (change * (1 + 3 / 4 * (s / d))) with (change + s / 4 * (3 * change / d)) by (field; lra).
      apply Rplus_le_compat; [apply Rmax_lub; apply Yc|]. apply Rmult_le_compat_l; [lra|]. apply Rmax_lub; apply B; lia.
    + intros N1 N2. eapply Rle_trans; [exact C|]. rewrite (Y i N1), (Y (i + 1)%nat N2), Rabs_R0, Rmax_left, Rplus_0_l by lra.
      set (k := (Nat.min (apart i j) (apart (i + 1) j) - 1)%nat).
      replace (3 / 4 * change * (s / d) / 2 ^ k) with (s / 4 * (3 * change / d / 2 ^ k)) by (field; split; [lra|apply pow_nonzero; lra]).
      apply Rmult_le_compat_l; [lra|]. rewrite <- (Rabs_pos_eq (3 * change / d)) by exact Bd.
      apply Rmax_lub; (eapply Rle_trans; [apply Dc; lia|]); rewrite <- (Rabs_pos_eq (3 * change / d)) at 1 by exact Bd; apply halved; unfold k; lia.
Qed.

(** The initial velocity of a trajectory through four points. *)
Example C117_example : exists r r',
  set_data4 pivoted 3 c_new sine_times (map sin sine_times) 1 0 = Ok (true, r) /\ set_data4 pivoted 3 c_new sine_times (map sin sine_times) 0 0 = Ok (true, r') /\
  exists v v', get_velocity_at_time 3 r (3 / 2) = Ok v /\ get_velocity_at_time 3 r' (3 / 2) = Ok v' /\ v <> v' /\ Rabs (v - v') <= 1 / 4.
Proof.
  destruct sine_valid as [Hv _].
  destruct (C117_initial_velocity pivoted c_new c_new sine_times (map sin sine_times) 1 0 0 (proj1 C100_solver) Hv) as (r & r' & E & E' & A & _).
  exists r, r'. split; [exact E|]. split; [exact E'|]. destruct (A 2%nat ltac:(cbn; lia)) as (v & v' & V & V' & B & N).
  cbn [nth sine_times] in V, V'. rewrite Rminus_0_r in V, V'. exists v, v'. split; [exact V|]. split; [exact V'|]. split.
  - apply N; [cbn; lia|lra].
  - eapply Rle_trans; [exact B|]. rewrite Rminus_0_r, Rabs_R1. cbn. lra.
Qed.

Example C117_sample_example : valid_knots sine_times (map sin sine_times) /\ agree_but 2 [1; 2; 3; 4] [1; 2; 5; 4] /\
  forall i, (i + 1 < length sine_times)%nat -> 1 / 2 <= nth (i + 1) sine_times 0 - nth i sine_times 0.
Proof.
  split; [apply sine_valid|]. split.
  - intros [|[|[|[|[|k]]]]] N; try reflexivity. congruence.
  - intros [|[|[|i]]] L; cbn in *; try lra; lia.
Qed.
