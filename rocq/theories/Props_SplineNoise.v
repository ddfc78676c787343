(** * C120: fitting inaccurate samples with splines *)

From Coq Require Import List Bool Arith NArith ZArith Reals Lra Lia Psatz.
From Verif Require Import Base Num TimeInst Spline SplineSpec LinSpec SplineProofs
  Container ContainerSpec ContainerProofs SetDataSpec SetDataSys SetDataProofs SetDataExist SetDataTraj SetDataTop
  SetDataUnique SetDataEnergy Props_SetData SplineCurves Props_SplineCurves HermiteE3Proofs ColPiv Props_ColPiv
  Props_SplineRate Props_SplineDecay.
Import ListNotations.
Local Open Scope R_scope.

(** ** Specification *)

(** As many numbers in both lists, and corresponding ones no farther apart than [e]. *)
Definition close_data (e : R) (ys zs : list R) : Prop :=
  length ys = length zs /\ forall i, (i < length ys)%nat -> Rabs (nth i ys 0 - nth i zs 0) <= e.

(** Neighbouring knots are at least [d] apart. *)
Definition separated (d : R) (knots : list R) : Prop := forall i, (i + 1 < length knots)%nat -> d <= nth (i + 1) knots 0 - nth i knots 0.

(** ** Velocities *)

Section Velocities.
Variables (knots : list R) (y e : nat -> R).
Hypothesis Hi : increasing knots.
Hypothesis L2 : (2 <= length knots)%nat.
Local Notation n := (length knots - 1)%nat.
Hypothesis Hj : forall i, (1 <= i < n)%nat ->
     rec knots (i - 1) * e (i - 1)%nat + 2 * (rec knots (i - 1) + rec knots i) * e i + rec knots i * e (i + 1)%nat =
     3 * ((y i - y (i - 1)%nat) * (rec knots (i - 1) * rec knots (i - 1)) + (y (i + 1)%nat - y i) * (rec knots i * rec knots i)).

Lemma largest_ends B : Rabs (e 0%nat) <= B -> Rabs (e n) <= B ->
  (forall i, (1 <= i < n)%nat ->
     Rabs (3 * ((y i - y (i - 1)%nat) * (rec knots (i - 1) * rec knots (i - 1)) + (y (i + 1)%nat - y i) * (rec knots i * rec knots i))) <= (rec knots (i - 1) + rec knots i) * B) ->
  forall i, (i <= n)%nat -> Rabs (e i) <= B.
Proof.
  intros Z0 Zn H i Li. destruct (largest e n) as (j & Lj & Kj). eapply Rle_trans; [apply Kj; exact Li|]. clear i Li.
  destruct (Nat.eq_dec j 0) as [->|J0]; [exact Z0|]. destruct (Nat.eq_dec j n) as [->|Jn]; [exact Zn|].
  specialize (H j ltac:(lia)). rewrite <- Hj in H by lia. destruct (step_pos knots Hi L2 (j - 1) ltac:(lia)) as [_ P1]. destruct (step_pos knots Hi L2 j ltac:(lia)) as [_ P2].
  set (A := rec knots (j - 1)) in *. set (C := rec knots j) in *.
  pose proof (Kj (j - 1)%nat ltac:(lia)) as K1. pose proof (Kj (j + 1)%nat ltac:(lia)) as K2.
  assert (W : 2 * (A + C) * Rabs (e j) <= Rabs (A * e (j - 1)%nat + 2 * (A + C) * e j + C * e (j + 1)%nat) + (A * Rabs (e (j - 1)%nat) + C * Rabs (e (j + 1)%nat))).
  { assert (M1 : A * Rabs (e (j - 1)%nat) = Rabs (A * e (j - 1)%nat)) by (rewrite Rabs_mult, (Rabs_pos_eq A) by lra; reflexivity).
    assert (M2 : C * Rabs (e (j + 1)%nat) = Rabs (C * e (j + 1)%nat)) by (rewrite Rabs_mult, (Rabs_pos_eq C) by lra; reflexivity).
    assert (M3 : 2 * (A + C) * Rabs (e j) = Rabs (2 * (A + C) * e j)) by (rewrite Rabs_mult, (Rabs_pos_eq (2 * (A + C))) by lra; reflexivity).
    rewrite M1, M2, M3. set (S := A * e (j - 1)%nat + 2 * (A + C) * e j + C * e (j + 1)%nat).
    replace (2 * (A + C) * e j) with (S - (A * e (j - 1)%nat + C * e (j + 1)%nat)) by (unfold S; ring).
    eapply Rle_trans; [apply Rabs_triang|]. rewrite Rabs_Ropp. apply Rplus_le_compat_l, Rabs_triang. }
  pose proof (Rmult_le_compat_l A _ _ ltac:(lra) K1). pose proof (Rmult_le_compat_l C _ _ ltac:(lra) K2).
  apply (Rmult_le_reg_l (A + C)); lra.
Qed.

Lemma largest_noise E w d : 0 < d -> separated d knots -> Rabs (e 0%nat) <= w -> Rabs (e n) <= w -> (forall i, (i <= n)%nat -> Rabs (y i) <= E) ->
  forall i, (i <= n)%nat -> Rabs (e i) <= Rmax (6 * E / d) w.
Proof.
  intros Pd Hd Z0 Zn Y. apply largest_ends; [eapply Rle_trans; [exact Z0|apply Rmax_r]|eapply Rle_trans; [exact Zn|apply Rmax_r]|].
  intros i Li. destruct (step_pos knots Hi L2 (i - 1) ltac:(lia)) as [_ P1]. destruct (step_pos knots Hi L2 i ltac:(lia)) as [_ P2].
  assert (Rd : forall k, (k < n)%nat -> rec knots k <= / d) by (intros k Lk; unfold rec; apply Rinv_le_contravar; [exact Pd|apply Hd; lia]).
  pose proof (Rd (i - 1)%nat ltac:(lia)) as Q1. pose proof (Rd i ltac:(lia)) as Q2.
  set (A := rec knots (i - 1)) in *. set (C := rec knots i) in *.
  assert (PE : 0 <= E) by (eapply Rle_trans; [apply Rabs_pos|apply (Y i); lia]).
  assert (S : forall j k x, (j <= n)%nat -> (k <= n)%nat -> 0 < x -> x <= / d -> Rabs ((y j - y k) * (x * x)) <= x * (2 * E / d)).
  { intros j k x Lj Lk X1 X2. rewrite Rabs_mult, (Rabs_pos_eq (x * x)) by (apply Rmult_le_pos; lra).
    assert (D : Rabs (y j - y k) <= 2 * E).
    { unfold Rminus. eapply Rle_trans; [apply Rabs_triang|]. rewrite Rabs_Ropp. pose proof (Y j Lj). pose proof (Y k Lk). lra. }
    replace (x * (2 * E / d)) with (2 * E * (x * / d)) by (field; lra).
    apply Rmult_le_compat; [apply Rabs_pos|apply Rmult_le_pos; lra|exact D|apply Rmult_le_compat_l; lra]. }
  pose proof (S i (i - 1)%nat A ltac:(lia) ltac:(lia) P1 Q1) as S1. pose proof (S (i + 1)%nat i C ltac:(lia) ltac:(lia) P2 Q2) as S2.
  rewrite Rabs_mult, (Rabs_pos_eq 3) by lra.
  apply Rle_trans with (3 * (A * (2 * E / d) + C * (2 * E / d))).
  - apply Rmult_le_compat_l; [lra|]. eapply Rle_trans; [apply Rabs_triang|]. lra.
  - replace (3 * (A * (2 * E / d) + C * (2 * E / d))) with ((A + C) * (6 * E / d)) by (field; lra).
    apply Rmult_le_compat_l; [lra|]. apply Rmax_l.
Qed.
End Velocities.

(** ** C120 *)

(** Samples differing by at most [e], velocities at the ends by at most [w], knots between [d] and [h] apart. *)
Theorem C120_fit : forall (solve : solver R) c c' knots ys zs v0 w0 vT wT e w d h, exact_solver solve -> valid_knots knots ys -> close_data e ys zs ->
  Rabs (v0 - w0) <= w -> Rabs (vT - wT) <= w -> 0 < d -> separated d knots -> spaced h knots ->
  exists r r', set_data4 solve 3 c knots ys v0 vT = Ok (true, r) /\ set_data4 solve 3 c' knots zs w0 wT = Ok (true, r') /\
    (forall t, nth 0 knots 0 <= t <= nth (length knots - 1) knots 0 -> exists p p',
       get_position_at_time 3 r (t - nth 0 knots 0) = Ok p /\ get_position_at_time 3 r' (t - nth 0 knots 0) = Ok p' /\
       Rabs (p - p') <= e + h / 4 * Rmax (6 * e / d) w) /\
    (forall i, (i < length knots)%nat -> exists v v',
       get_velocity_at_time 3 r (nth i knots 0 - nth 0 knots 0) = Ok v /\ get_velocity_at_time 3 r' (nth i knots 0 - nth 0 knots 0) = Ok v' /\
       Rabs (v - v') <= Rmax (6 * e / d) w).
Proof.
  intros solve c c' knots ys zs v0 w0 vT wT e w d h Hs Hv [Lz Hc] W0 W1 Pd Hd Hh. pose proof Hv as (L2 & Hi & Ly & Hsm).
  assert (Hw : valid_knots knots zs) by (split; [exact L2|]; split; [exact Hi|]; split; [lia|exact Hsm]).
  destruct (two_fits solve c c' knots ys zs v0 w0 vT wT Hs Hv Hw) as (r & r' & m & E & E' & Z0 & Zn & J & V & P).
  exists r, r'. split; [exact E|]. split; [exact E'|]. rewrite <- Z0 in W0. rewrite <- Zn in W1.
  assert (B : forall i, (i <= length knots - 1)%nat -> Rabs (m i) <= Rmax (6 * e / d) w).
  { apply (largest_noise knots (fun i => nth i ys 0 - nth i zs 0) m Hi L2 J e w d Pd Hd W0 W1). intros i Li. apply Hc. lia. }
  split.
  - intros t Ht. destruct (samples_of knots ys Hi Ly) as (f & Ef).
    assert (Hf : valid_knots knots (map f knots)) by (now rewrite Ef).
    destruct (fit_which knots f Hf t Ht) as (i & Li & Hti). destruct (fit_n knots f Hf) as (En & _).
    destruct (P i t ltac:(lia) Hti) as (p & p' & A & A' & C). exists p, p'. split; [exact A|]. split; [exact A'|].
    eapply Rle_trans; [exact C|]. apply Rplus_le_compat; [apply Rmax_lub; apply Hc; lia|].
    pose proof (Hi i ltac:(lia)) as O. pose proof (Hh i ltac:(lia)) as O2.
    assert (M : Rmax (Rabs (m i)) (Rabs (m (i + 1)%nat)) <= Rmax (6 * e / d) w) by (apply Rmax_lub; apply B; lia).
    apply Rmult_le_compat; [lra| |lra|exact M]. eapply Rle_trans; [apply Rabs_pos|apply Rmax_l].
  - intros i L. destruct (V i L) as (v & v' & A & A' & Ev). exists v, v'. split; [exact A|]. split; [exact A'|]. rewrite Ev. apply B. lia.
Qed.

(** Measurements with errors of at most [e] of a function whose fourth derivative is bounded by [M]. *)
Theorem C120_measured : forall (solve : solver R) c knots ys v0 vT f f1 f2 f3 f4 M e w d h,
  exact_solver solve -> valid_knots knots ys -> close_data e ys (map f knots) ->
  Rabs (v0 - f1 (nth 0 knots 0)) <= w -> Rabs (vT - f1 (nth (length knots - 1) knots 0)) <= w -> 0 < d -> separated d knots -> spaced h knots ->
  derives f f1 (nth 0 knots 0) (nth (length knots - 1) knots 0) -> derives f1 f2 (nth 0 knots 0) (nth (length knots - 1) knots 0) ->
  derives f2 f3 (nth 0 knots 0) (nth (length knots - 1) knots 0) -> derives f3 f4 (nth 0 knots 0) (nth (length knots - 1) knots 0) ->
  (forall t, nth 0 knots 0 <= t <= nth (length knots - 1) knots 0 -> Rabs (f4 t) <= M) ->
  exists r, set_data4 solve 3 c knots ys v0 vT = Ok (true, r) /\
    forall t, nth 0 knots 0 <= t <= nth (length knots - 1) knots 0 ->
      exists p, get_position_at_time 3 r (t - nth 0 knots 0) = Ok p /\ Rabs (p - f t) <= 5 / 384 * M * h ^ 4 + (e + h / 4 * Rmax (6 * e / d) w).
Proof.
  intros solve c knots ys v0 vT f f1 f2 f3 f4 M e w d h Hs Hv Hc W0 W1 Pd Hd Hh D1 D2 D3 D4 HM.
  assert (Hf : valid_knots knots (map f knots)).
  { destruct Hv as (A & B & _ & C). split; [exact A|]. split; [exact B|]. split; [apply map_length|exact C]. }
  destruct (C120_fit solve c c knots ys (map f knots) v0 _ vT _ e w d h Hs Hv Hc W0 W1 Pd Hd Hh) as (r & r' & E & E' & P & _).
  destruct (C113_fourth solve c knots f f1 f2 f3 f4 M h Hs Hf Hh D1 D2 D3 D4 HM) as (r2 & E2 & Q & _).
  rewrite E' in E2. assert (r2 = r') by congruence. subst r2.
  exists r. split; [exact E|]. intros t Ht. destruct (P t Ht) as (p & p' & A & A' & B). destruct (Q t Ht) as (q & _ & A2 & _ & B2 & _).
  assert (q = p') by congruence. subst q. exists p. split; [exact A|].
  replace (p - f t) with ((p - p') + (p' - f t)) by ring. eapply Rle_trans; [apply Rabs_triang|]. lra.
Qed.

(** ** Short steps *)

(** A step of length [s] before one of length 1, both ends at rest: the position in the middle of the second. *)
Lemma three_knots (solve : solver R) c s f : exact_solver solve -> 0 < s ->
  valid_knots [0; s; s + 1] (map f [0; s; s + 1]) /\
  exists r, set_data4 solve 3 c [0; s; s + 1] (map f [0; s; s + 1]) 0 0 = Ok (true, r) /\
    get_position_at_time 3 r (s + 1 / 2) = Ok ((f s + f (s + 1)) / 2 + 3 / 16 * (f s - f 0) / (s * (1 + s)) + 3 / 16 * (f (s + 1) - f s) * s / (1 + s)).
Proof.
  intros Hs Ps. set (knots := [0; s; s + 1]).
  assert (Hv : valid_knots knots (map f knots)).
  { split; [cbn; lia|]. split; [|split; [reflexivity|reflexivity]]. intros [|[|i]] L; cbn in *; [lra|lra|lia]. }
  split; [exact Hv|].
  destruct (set_data4_stores solve 3 c knots (map f knots) 0 0 Hs ltac:(lia) Hv) as (segs & Sg & Gd & E).
  eexists. split; [exact E|].
  pose proof (fit_ends knots f (fun _ => 0) segs Hv Sg Gd) as [Z0 Z2].
  pose proof (fit_smooth knots f (fun _ => 0) segs Hv Sg Gd 0%nat) as J.
  destruct (fit_hermite knots f (fun _ => 0) segs Hv Sg Gd 1%nat (s + 1 / 2)) as [P _]; [cbn; lia|cbn; lra|].
  destruct (fit_defined knots f segs Hv Sg (s + 1 / 2)) as [Q _]; [cbn; lra|].
  rewrite P in Q. replace (s + 1 / 2 - nth 0 knots 0) with (s + 1 / 2) in Q by (cbn; ring). rewrite Q. f_equal.
  specialize (J ltac:(cbn; lia)). cbn [diffs length knots] in Z2.
  cbn [Nat.add] in *. change (nth 0 knots 0) with 0 in *. change (nth 1 knots 0) with s in *. change (nth 2 knots 0) with (s + 1) in *.
  match type of Z2 with ?z = 0 => replace z with (slope_at knots segs 2) in Z2 by reflexivity end.
  rewrite Z0, Z2 in J. set (m := slope_at knots segs 1) in *. unfold hval. cbv zeta. rewrite Z2.
  assert (Em : m = 3 / 2 * ((f s - f 0) / (s * (1 + s)) + (f (s + 1) - f s) * s / (1 + s))).
  { replace (s + 1 - s) with 1 in J by ring. rewrite Rminus_0_r in J.
    apply (Rmult_eq_reg_l (4 * (1 + s))); [|lra].
    assert (J' : 4 * m * (1 / s + 1) = 6 * ((f s - f 0) / s) / s + 6 * (f (s + 1) - f s)).
    { assert (L : (2 * 0 + 4 * m - 6 * ((f s - f 0) / s)) / s = 4 * m * (1 / s) - 6 * ((f s - f 0) / s) / s) by (field; lra). lra. }
    replace (4 * (1 + s) * m) with (4 * m * (1 / s + 1) * s) by (field; lra). rewrite J'. field. lra. }
  rewrite Em. field. lra.
Qed.

(** No factor will do for all knots: errors of at most 1 in the samples can change the position between two
    knots by more than any [F], although no two neighbouring knots are more than 1 apart. *)
Theorem C120_factor_refuted : forall (solve : solver R) c c' F, exact_solver solve ->
  exists knots ys zs r r' t p p', valid_knots knots ys /\ spaced 1 knots /\ close_data 1 ys zs /\
    set_data4 solve 3 c knots ys 0 0 = Ok (true, r) /\ set_data4 solve 3 c' knots zs 0 0 = Ok (true, r') /\
    nth 0 knots 0 <= t <= nth (length knots - 1) knots 0 /\
    get_position_at_time 3 r (t - nth 0 knots 0) = Ok p /\ get_position_at_time 3 r' (t - nth 0 knots 0) = Ok p' /\ F < Rabs (p - p').
Proof.
  intros solve c c' F Hs. set (G := Rabs F + 1). assert (PG : 1 <= G) by (unfold G; pose proof (Rabs_pos F); lra).
  assert (FG : F < G) by (unfold G; pose proof (Rle_abs F); lra).
  set (s := / (16 * G)). assert (Ps : 0 < s) by (apply Rinv_0_lt_compat; lra).
  assert (S1 : s <= 1) by (unfold s; replace 1 with (/ 1) by (apply Rinv_1); apply Rinv_le_contravar; lra).
  set (f t := Rmin 1 (t / s)).
  assert (F0 : f 0 = 0) by (unfold f, Rdiv; rewrite Rmult_0_l, Rmin_right; lra).
  assert (F1 : f s = 1) by (unfold f; replace (s / s) with 1 by (field; lra); apply Rmin_left; lra).
  assert (F2 : f (s + 1) = 1).
  { unfold f. apply Rmin_left. apply (Rmult_le_reg_r s); [exact Ps|]. unfold Rdiv. rewrite Rmult_assoc, Rinv_l, Rmult_1_r by lra. lra. }
  destruct (three_knots solve c s f Hs Ps) as (Hv & r & E & P). destruct (three_knots solve c' s (fun _ => 0) Hs Ps) as (_ & r' & E' & P').
  set (knots := [0; s; s + 1]) in *.
  exists knots, (map f knots), (map (fun _ => 0) knots), r, r', (s + 1 / 2). do 2 eexists.
  split; [exact Hv|]. split; [intros [|[|i]] L; cbn in *; [lra|lra|lia]|]. split.
  - split; [now rewrite !map_length|]. intros i L. cbn [map knots length] in *. rewrite F0, F1, F2.
    destruct i as [|[|[|i]]]; cbn [nth]; [| | |lia]; rewrite Rminus_0_r; [rewrite Rabs_R0|rewrite Rabs_R1|rewrite Rabs_R1]; lra.
  - split; [exact E|]. split; [exact E'|]. split; [cbn; lra|].
    replace (s + 1 / 2 - nth 0 knots 0) with (s + 1 / 2) by (cbn; ring). split; [exact P|]. split; [exact P'|].
    rewrite F0, F1, F2. match goal with |- F < Rabs ?z => replace z with (1 + 3 / 16 / (s * (1 + s))) by (field; lra) end.
    assert (Q : G <= 3 / 16 / (s * (1 + s))).
    { replace G with (1 / 16 / s) by (unfold s; field; lra). unfold Rdiv. rewrite Rinv_mult.
      assert (I : / 2 <= / (1 + s)) by (apply Rinv_le_contravar; lra). pose proof (Rinv_0_lt_compat s Ps) as Is.
      pose proof (Rmult_le_compat_l (/ s) _ _ ltac:(lra) I). lra. }
    rewrite Rabs_pos_eq; lra.
Qed.

(** ** Instances of the hypotheses *)
Example C120_example : exact_solver pivoted /\ valid_knots sine_times [0; 1; 1; 1] /\ close_data 1 [0; 1; 1; 1] (map sin sine_times) /\
  separated (1 / 2) sine_times /\ spaced 1 sine_times /\ Rabs (1 - cos 0) <= 0 /\
  derives sin cos 0 2 /\ derives cos (fun t => - sin t) 0 2 /\ derives (fun t => - sin t) (fun t => - cos t) 0 2 /\ derives (fun t => - cos t) sin 0 2 /\
  forall t, 0 <= t <= 2 -> Rabs (sin t) <= 1.
Proof.
  destruct sine_valid as [Hv Hsp]. destruct (sine_derives 0 2) as (A & B & C & D).
  split; [exact (proj1 C100_solver)|]. split; [|split; [|split; [|split; [exact Hsp|]]]].
  - destruct Hv as (L2 & Hi & _ & Hsm). split; [exact L2|]. split; [exact Hi|]. split; [reflexivity|exact Hsm].
  - assert (P : 3 < PI) by (pose proof PI2_3_2; lra). assert (S : forall x, 0 <= x <= 2 -> 0 <= sin x <= 1).
    { intros x Hx. split; [apply sin_ge_0; lra|apply SIN_bound]. }
    split; [reflexivity|]. intros i L. cbn [map sine_times length] in *.
    destruct i as [|[|[|[|i]]]]; cbn [nth]; [| | | |lia].
    + rewrite sin_0, Rminus_0_r, Rabs_R0. lra.
    + pose proof (S (1 / 2) ltac:(lra)). rewrite Rabs_pos_eq; lra.
    + pose proof (S (3 / 2) ltac:(lra)). rewrite Rabs_pos_eq; lra.
    + pose proof (S 2 ltac:(lra)). rewrite Rabs_pos_eq; lra.
  - intros [|[|[|i]]] L; cbn in *; try lra; lia.
  - split; [rewrite cos_0, Rminus_diag_eq, Rabs_R0 by reflexivity; lra|].
    split; [exact A|]. split; [exact B|]. split; [exact C|]. split; [|intros t _; apply Rabs_le, SIN_bound].
    intros t Ht. pose proof (D t Ht) as Q. exact Q.
Qed.

Print Assumptions C120_fit.
Print Assumptions C120_measured.
Print Assumptions C120_factor_refuted.
