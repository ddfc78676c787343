(** * C127: speeds of splines through samples of a motion of bounded speed *)

From Coq Require Import List Bool Arith NArith ZArith Reals Lra Lia Psatz.
From Verif Require Import Base Num TimeInst Spline SplineSpec LinSpec SplineProofs
  Container ContainerSpec ContainerProofs SetDataSpec SetDataSys SetDataProofs SetDataExist SetDataTraj SetDataTop
  SetDataUnique SetDataEnergy Props_SetData SplineCurves Props_SplineCurves HermiteE3Proofs ColPiv Props_ColPiv
  Props_SplineRate Props_SplineDecay Props_SplineNoise.
Import ListNotations.
Local Open Scope R_scope.

(** ** Specification *)

(** From sample to sample the mean speed is at most [V]. *)
Definition paced (V : R) (knots ys : list R) : Prop := forall i, (i + 1 < length knots)%nat ->
  Rabs (nth (i + 1) ys 0 - nth i ys 0) <= V * (nth (i + 1) knots 0 - nth i knots 0).

(** ** One segment *)

Lemma speed_weights x : 0 <= x <= 1 -> 2 * (x * (1 - x)) + (Rabs ((1 - x) * (1 - 3 * x)) + Rabs (x * (2 - 3 * x))) <= 1.
Proof.
  intros X. pose proof (Rle_0_sqr x). pose proof (Rle_0_sqr (1 - x)). pose proof (Rle_0_sqr (1 - 2 * x)). unfold Rsqr in *. destruct (Rle_lt_dec x (/ 3)) as [A|A].
  { rewrite !Rabs_pos_eq by nra. lra. }
  destruct (Rle_lt_dec (2 / 3) x) as [B|B].
  { rewrite !Rabs_left1 by nra. lra. }
  rewrite (Rabs_left1 ((1 - x) * (1 - 3 * x))), (Rabs_pos_eq (x * (2 - 3 * x))) by nra. lra.
Qed.

Section Segment.
Variables (a b p0 p1 m0 m1 V W t : R).
Hypothesis Hab : a < b.
Hypothesis Ht : a <= t <= b.
Hypothesis HW : 3 * V <= W.
Hypothesis Hp : Rabs (p1 - p0) <= V * (b - a).
Hypothesis H0 : Rabs m0 <= W.
Hypothesis H1 : Rabs m1 <= W.

Lemma segment_speed : Rabs (hvel a b p0 m0 p1 m1 t) <= W.
Proof.
  set (d := b - a). set (x := (t - a) / d). assert (Pd : 0 < d) by (unfold d; lra).
  assert (Et : t - a = x * d) by (unfold x; field; lra).
  assert (X : 0 <= x <= 1) by (split; apply (Rmult_le_reg_r d); unfold d in *; lra).
  assert (PW : 0 <= W) by (eapply Rle_trans; [apply Rabs_pos|exact H0]).
  replace (hvel a b p0 m0 p1 m1 t) with (6 * (x * (1 - x)) * ((p1 - p0) * / d) + ((1 - x) * (1 - 3 * x) * m0 + x * (2 - 3 * x) * - m1))
    by (unfold hvel; cbv zeta; fold d; change ((t - a) / d) with x; field; lra).
  assert (U : 0 <= x * (1 - x)) by (apply Rmult_le_pos; lra).
  assert (S : Rabs ((p1 - p0) * / d) <= W / 3).
  { rewrite Rabs_mult, (Rabs_pos_eq (/ d)) by (left; now apply Rinv_0_lt_compat). apply (Rmult_le_reg_r d); [exact Pd|].
    rewrite Rmult_assoc, Rinv_l, Rmult_1_r by lra. eapply Rle_trans; [exact Hp|]. fold d. apply Rmult_le_compat_r; lra. }
  eapply Rle_trans; [apply Rabs_triang|]. eapply Rle_trans; [apply Rplus_le_compat_l, Rabs_triang|].
  rewrite (Rabs_mult (6 * (x * (1 - x)))), (Rabs_pos_eq (6 * (x * (1 - x)))) by lra. rewrite (Rabs_mult _ m0), (Rabs_mult _ (- m1)), Rabs_Ropp.
  pose proof (Rmult_le_compat_l (6 * (x * (1 - x))) _ _ ltac:(lra) S).
  pose proof (Rmult_le_compat_l _ _ _ (Rabs_pos ((1 - x) * (1 - 3 * x))) H0). pose proof (Rmult_le_compat_l _ _ _ (Rabs_pos (x * (2 - 3 * x))) H1).
  pose proof (Rmult_le_compat_r W _ _ PW (speed_weights x X)). lra.
Qed.

Lemma segment_position q : Rabs (q - p0) <= V * (t - a) -> Rabs (q - p1) <= V * (b - t) ->
  Rabs (hval a b p0 m0 p1 m1 t - q) <= (b - a) * (V / 2 + W / 4).
Proof.
  intros Q0 Q1. set (d := b - a). set (x := (t - a) / d). assert (Pd : 0 < d) by (unfold d; lra).
  assert (Et : t - a = x * d) by (unfold x; field; lra). assert (Eb : b - t = (1 - x) * d) by (unfold d in *; lra).
  assert (X : 0 <= x <= 1) by (split; apply (Rmult_le_reg_r d); unfold d in *; lra).
  assert (PW : 0 <= W) by (eapply Rle_trans; [apply Rabs_pos|exact H0]).
  assert (PV : 0 <= V) by (apply (Rmult_le_reg_r d); [exact Pd|]; rewrite Rmult_0_l; eapply Rle_trans; [apply Rabs_pos|exact Hp]).
  rewrite Et in Q0. rewrite Eb in Q1.
  set (w := 3 * (x * x) - 2 * (x * x * x)). assert (Wt : 0 <= w <= 1).
  { pose proof (Rmult_le_pos (x * x) (3 - 2 * x) (Rle_0_sqr x) ltac:(lra)). pose proof (Rmult_le_pos ((1 - x) * (1 - x)) (1 + 2 * x) (Rle_0_sqr (1 - x)) ltac:(lra)).
    unfold w. lra. }
  assert (A0 : 0 <= x * ((1 - x) * (1 - x)) * d) by (apply Rmult_le_pos; [apply Rmult_le_pos; [lra|apply Rle_0_sqr]|lra]).
  assert (A1 : 0 <= x * x * (1 - x) * d) by (apply Rmult_le_pos; [apply Rmult_le_pos; [apply Rle_0_sqr|lra]|lra]).
  replace (hval a b p0 m0 p1 m1 t - q) with (- ((1 - w) * (q - p0) + w * (q - p1)) + (x * ((1 - x) * (1 - x)) * d * m0 + - (x * x * (1 - x) * d * m1)))
    by (unfold hval, w; cbv zeta; fold d; change ((t - a) / d) with x; ring).
  eapply Rle_trans; [apply Rabs_triang|]. rewrite Rabs_Ropp.
  assert (B0 : Rabs ((1 - w) * (q - p0) + w * (q - p1)) <= V * d * / 2).
  { eapply Rle_trans; [apply Rabs_triang|]. rewrite !Rabs_mult, (Rabs_pos_eq (1 - w)), (Rabs_pos_eq w) by lra.
    pose proof (Rmult_le_compat_l (1 - w) _ _ ltac:(lra) Q0). pose proof (Rmult_le_compat_l w _ _ ltac:(lra) Q1).
    set (u := x * (1 - x)). assert (U : 0 <= u <= / 4) by (unfold u; pose proof (Rmult_le_pos x (1 - x) ltac:(lra) ltac:(lra)); pose proof (Rle_0_sqr (1 - 2 * x)) as Z; unfold Rsqr in Z; lra).
    assert (U2 : u * (1 + 4 * u) <= / 2) by (pose proof (Rmult_le_compat_l u (1 + 4 * u) 2 ltac:(lra) ltac:(lra)); lra).
    assert (P : 0 <= V * d) by (apply Rmult_le_pos; lra). pose proof (Rmult_le_compat_l (V * d) _ _ P U2) as Z.
    replace (V * d * (u * (1 + 4 * u))) with ((1 - w) * (V * (x * d)) + w * (V * ((1 - x) * d))) in Z by (unfold w, u; ring). lra. }
  assert (B1 : Rabs (x * ((1 - x) * (1 - x)) * d * m0 + - (x * x * (1 - x) * d * m1)) <= d / 4 * W).
  { eapply Rle_trans; [apply Rabs_triang|]. rewrite Rabs_Ropp, (Rabs_mult _ m0), (Rabs_mult _ m1), (Rabs_pos_eq _ A0), (Rabs_pos_eq _ A1).
    pose proof (Rmult_le_compat_l _ _ _ A0 H0). pose proof (Rmult_le_compat_l _ _ _ A1 H1).
    assert (0 <= W * d * ((1 - 2 * x) * (1 - 2 * x))) by (apply Rmult_le_pos; [apply Rmult_le_pos; lra|apply Rle_0_sqr]). lra. }
  lra.
Qed.
End Segment.

(** ** The whole spline *)

Section Fit.
Variables (knots : list R) (f f1 : R -> R) (segs : list (list R)) (V W : R).
Hypothesis Hv : valid_knots knots (map f knots).
Local Notation D := (diffs knots).
Local Notation n := (length (diffs knots)).
Local Notation T i := (nth i knots 0).
Local Notation first := (nth 0 knots 0).
Local Notation last := (nth (length knots - 1) knots 0).
Hypothesis Hsegs : segments 3 n segs.
Hypothesis Hgood : good 3 n D (map f knots) [f1 first] [f1 last] segs.
Hypothesis Hp : paced V knots (map f knots).
Hypothesis HW : 3 * V <= W.
Hypothesis W0 : Rabs (f1 first) <= W.
Hypothesis W1 : Rabs (f1 last) <= W.
Local Notation c := (holding (splines_of segs D)).

Lemma speed_paced i : (i < n)%nat -> Rabs (f (T (i + 1)) - f (T i)) <= V * (T (i + 1) - T i).
Proof.
  intros L. destruct (fit_n knots f Hv) as (E & _). pose proof (Hp i ltac:(lia)) as P.
  rewrite (fit_sample knots f Hv) in P by lia. rewrite (fit_sample knots f Hv) in P by lia. exact P.
Qed.

Lemma speed_knots i : (i <= n)%nat -> Rabs (slope_at knots segs i) <= W.
Proof.
  destruct (fit_n knots f Hv) as (E & N1 & _). destruct (fit_ends knots f f1 segs Hv Hsegs Hgood) as [Z0 Zn].
  pose proof Hv as (L2 & Hi & _). assert (En : (length knots - 1)%nat = n) by lia. intros Li.
  apply (largest_ends knots (fun k => f (T k)) (slope_at knots segs) Hi L2); [|rewrite Z0; exact W0|rewrite En, Zn; rewrite En in W1; exact W1| |lia].
  - intros k L. pose proof (fit_smooth knots f f1 segs Hv Hsegs Hgood (k - 1) ltac:(lia)) as A.
    replace (k - 1 + 1)%nat with k in * by lia. replace (k - 1 + 2)%nat with (k + 1)%nat in * by lia.
    unfold rec. replace (k - 1 + 1)%nat with k by lia. unfold Rdiv in A.
    set (u := / (T k - T (k - 1))) in *. set (w := / (T (k + 1) - T k)) in *. lra.
  - intros k L. destruct (step_pos knots Hi L2 (k - 1) ltac:(lia)) as [P0 P1]. destruct (step_pos knots Hi L2 k ltac:(lia)) as [P2 P3].
    assert (S : forall j, (j < n)%nat -> 0 < T (j + 1) - T j -> 0 < rec knots j -> Rabs ((f (T (j + 1)) - f (T j)) * (rec knots j * rec knots j)) <= V * rec knots j).
    { intros j Lj Q0 Q1. rewrite Rabs_mult, (Rabs_pos_eq (_ * _)) by (apply Rmult_le_pos; lra).
      pose proof (Rmult_le_compat_r (rec knots j * rec knots j) _ _ ltac:(apply Rmult_le_pos; lra) (speed_paced j Lj)) as Z.
      replace (V * (T (j + 1) - T j) * (rec knots j * rec knots j)) with (V * rec knots j) in Z by (unfold rec; field; lra). exact Z. }
    pose proof (S (k - 1)%nat ltac:(lia) P0 P1) as S0. pose proof (S k ltac:(lia) P2 P3) as S1. replace (k - 1 + 1)%nat with k in S0 by lia.
    rewrite Rabs_mult, (Rabs_pos_eq 3) by lra. eapply Rle_trans; [apply Rmult_le_compat_l; [lra|apply Rabs_triang]|].
    pose proof (Rmult_le_compat_r (rec knots (k - 1) + rec knots k) _ _ ltac:(lra) HW). lra.
Qed.

Lemma speed_fit t : first <= t <= last -> Rabs (velocity 3 c (t - first)) <= W /\
  forall h, spaced h knots -> steady V f first last -> Rabs (position 3 c (t - first) - f t) <= h * (V / 2 + W / 4).
Proof.
  intros Ht. destruct (fit_n knots f Hv) as (E & N1 & _). destruct (fit_which knots f Hv t Ht) as (i & Li & Hti).
  destruct (fit_hermite knots f f1 segs Hv Hsegs Hgood i t Li Hti) as [-> ->].
  assert (O : T i < T (i + 1)) by (apply Hv; lia).
  pose proof (speed_knots i ltac:(lia)) as K0. pose proof (speed_knots (i + 1) ltac:(lia)) as K1. pose proof (speed_paced i Li) as P.
  split; [eapply segment_speed; eauto|]. intros h Hh Hf.
  pose proof (fit_range knots f Hv i ltac:(lia)) as R0. pose proof (fit_range knots f Hv (i + 1) ltac:(lia)) as R1.
  apply Rle_trans with ((T (i + 1) - T i) * (V / 2 + W / 4)).
  - eapply segment_position; eauto.
    + rewrite <- (Rabs_pos_eq (t - T i)) by lra. apply Hf; lra.
    + rewrite <- (Rabs_pos_eq (T (i + 1) - t)), (Rabs_minus_sym (T (i + 1))) by lra. apply Hf; lra.
  - assert (PV : 0 <= V). { apply (Rmult_le_reg_r (T (i + 1) - T i)); [lra|]. rewrite Rmult_0_l. eapply Rle_trans; [apply Rabs_pos|exact P]. }
    apply Rmult_le_compat_r; [lra|]. apply Hh. lia.
Qed.
End Fit.

(** ** C127 *)

(** Samples with mean speeds of at most [V] in between, and velocities at the ends of at most [W], at least 3 [V]. *)
Theorem C127_speed : forall (solve : solver R) c knots ys v0 vT V W, exact_solver solve -> valid_knots knots ys -> paced V knots ys ->
  3 * V <= W -> Rabs v0 <= W -> Rabs vT <= W ->
  exists r, set_data4 solve 3 c knots ys v0 vT = Ok (true, r) /\
    forall t, nth 0 knots 0 <= t <= nth (length knots - 1) knots 0 -> exists v, get_velocity_at_time 3 r (t - nth 0 knots 0) = Ok v /\ Rabs v <= W.
Proof.
  intros solve c knots ys v0 vT V W Hs Hv Hp HW W0 W1. pose proof Hv as (L2 & Hi & Ly & _).
  destruct (samples_of knots ys Hi Ly) as (f & <-). destruct (ends_of knots v0 vT Hi L2) as (f1 & <- & <-).
  destruct (set_data4_stores solve 3 c knots (map f knots) (f1 (nth 0 knots 0)) (f1 (nth (length knots - 1) knots 0)) Hs ltac:(lia) Hv) as (segs & Sg & G & E).
  eexists. split; [exact E|]. intros t Ht. destruct (fit_defined knots f segs Hv Sg t Ht) as [_ P]. eexists. split; [exact P|].
  destruct (speed_fit knots f f1 segs V W Hv Sg G Hp HW W0 W1 t Ht) as [S _]. exact S.
Qed.

(** Samples of a motion that is nowhere faster than [V]; nothing is assumed about its derivatives. *)
Theorem C127_position : forall (solve : solver R) c knots f v0 vT V W h, exact_solver solve -> valid_knots knots (map f knots) -> spaced h knots ->
  steady V f (nth 0 knots 0) (nth (length knots - 1) knots 0) -> 3 * V <= W -> Rabs v0 <= W -> Rabs vT <= W ->
  exists r, set_data4 solve 3 c knots (map f knots) v0 vT = Ok (true, r) /\
    forall t, nth 0 knots 0 <= t <= nth (length knots - 1) knots 0 -> exists p v, get_position_at_time 3 r (t - nth 0 knots 0) = Ok p /\
      get_velocity_at_time 3 r (t - nth 0 knots 0) = Ok v /\ Rabs (p - f t) <= h * (V / 2 + W / 4) /\ Rabs v <= W.
Proof.
  intros solve c knots f v0 vT V W h Hs Hv Hh Hf HW W0 W1. pose proof Hv as (L2 & Hi & Ly & _).
  destruct (ends_of knots v0 vT Hi L2) as (f1 & <- & <-).
  destruct (set_data4_stores solve 3 c knots (map f knots) (f1 (nth 0 knots 0)) (f1 (nth (length knots - 1) knots 0)) Hs ltac:(lia) Hv) as (segs & Sg & G & E).
  assert (Hp : paced V knots (map f knots)).
  { intros i L. destruct (fit_n knots f Hv) as (En & _). rewrite !(fit_sample knots f Hv) by lia. pose proof (Hi i L) as O.
    rewrite <- (Rabs_pos_eq (nth (i + 1) knots 0 - nth i knots 0)) by lra. apply Hf; apply (fit_range knots f Hv); lia. }
  eexists. split; [exact E|]. intros t Ht. destruct (fit_defined knots f segs Hv Sg t Ht) as [P P']. do 2 eexists. split; [exact P|]. split; [exact P'|].
  destruct (speed_fit knots f f1 segs V W Hv Sg G Hp HW W0 W1 t Ht) as [S Q]. split; [apply Q; assumption|exact S].
Qed.

(** Scalar curves of order 3 with a motion starting and ending at rest. *)
Theorem C127_curve : forall (solve : solver R) sc times f a0 aT V h, exact_solver solve -> valid_knots times (map f times) -> spaced h times ->
  steady V f (nth 0 times 0) (nth (length times - 1) times 0) ->
  exists sc', sc_fit_boundary solve 3 sc times (map f times) 0 a0 0 aT = Ok sc' /\
    forall t old, nth 0 times 0 <= t <= nth (length times - 1) times 0 ->
      exists p v, sc_evaluate 3 sc' t = Ok (true, p) /\ sc_evaluate_derivative 3 sc' old t 1 = Ok (true, v) /\
        Rabs (p - f t) <= 5 / 4 * V * h /\ Rabs v <= 3 * V.
Proof.
  intros solve sc times f a0 aT V h Hs Hv Hh Hf. pose proof Hv as (H2 & Hi & _ & Hsm).
  assert (PV : 0 <= V).
  { destruct (fit_n times f Hv) as (En & N1 & _). pose proof (Hi 0%nat ltac:(lia)) as O.
    pose proof (fit_range times f Hv (0 + 1) ltac:(lia)) as R1. pose proof (fit_range times f Hv 0 ltac:(lia)) as R0. pose proof (Hf (nth (0 + 1) times 0) (nth 0 times 0) R1 R0) as Z.
    rewrite (Rabs_pos_eq (nth (0 + 1) times 0 - nth 0 times 0)) in Z by lra.
    apply (Rmult_le_reg_r (nth (0 + 1) times 0 - nth 0 times 0)); [lra|]. rewrite Rmult_0_l. eapply Rle_trans; [apply Rabs_pos|exact Z]. }
  destruct (C127_position solve (sc_container sc) times f 0 0 V (3 * V) h Hs Hv Hh Hf ltac:(lra) ltac:(rewrite Rabs_R0; lra) ltac:(rewrite Rabs_R0; lra)) as (r & E & A).
  rewrite <- (set_data6_drops solve 3 (sc_container sc) times (map f times) 0 a0 0 aT) in E by (try lia; exact Hsm).
  eexists. split; [apply (fit_container _ _ _ _ _ _ _ _ _ true _ (valid_nonempty _ _ Hv) E)|]. intros t old Ht.
  destruct (A t Ht) as (p & v & P & V' & B & B'). exists p, v.
  unfold sc_evaluate, sc_evaluate_derivative. cbn [sc_container sc_min Z.eqb Pos.eqb]. numR. rewrite P, V'. cbn [bind].
  split; [reflexivity|]. split; [reflexivity|]. split; [lra|exact B'].
Qed.

(** The spline can be faster than the motion: at rest at both ends of a single step, it is half as fast again halfway. *)
Theorem C127_faster_refuted : forall (solve : solver R) c, exact_solver solve ->
  exists r v, valid_knots [0; 1] [0; 1] /\ paced 1 [0; 1] [0; 1] /\ set_data4 solve 3 c [0; 1] [0; 1] 0 0 = Ok (true, r) /\
    get_velocity_at_time 3 r (1 / 2) = Ok v /\ v = 3 / 2.
Proof.
  intros solve c Hs. set (f t := t : R).
  assert (Hv : valid_knots [0; 1] (map f [0; 1])).
  { split; [cbn; lia|]. split; [|split; [reflexivity|cbn; lia]]. intros [|i] L; cbn in *; [lra|lia]. }
  destruct (set_data4_stores solve 3 c [0; 1] (map f [0; 1]) ((fun _ => 0) 0) ((fun _ => 0) 0) Hs ltac:(lia) Hv) as (segs & Sg & G & E).
  do 2 eexists. split; [exact Hv|]. split.
  - intros [|i] L; cbn in *; [|lia]. rewrite Rabs_pos_eq; lra.
  - split; [exact E|].
    destruct (fit_defined [0; 1] f segs Hv Sg (1 / 2) ltac:(cbn; lra)) as [_ P]. replace (1 / 2 - nth 0 [0; 1] 0) with (1 / 2) in P by (cbn; lra).
    split; [exact P|].
    destruct (fit_ends [0; 1] f (fun _ => 0) segs Hv Sg G) as [Z0 Z1]. change (length (diffs [0; 1])) with 1%nat in Z1.
    destruct (fit_hermite [0; 1] f (fun _ => 0) segs Hv Sg G 0 (1 / 2) ltac:(cbn; lia) ltac:(cbn; lra)) as [_ K].
    change (0 + 1)%nat with 1%nat in K. rewrite Z0, Z1 in K. replace (1 / 2 - nth 0 [0; 1] 0) with (1 / 2) in K by (cbn; lra).
    rewrite K. unfold hvel, f. cbn [nth]. field.
Qed.

(** Not in the source: a motion with a corner, there and back at unit speed, sampled at irregular times. *)
Definition corner (t : R) : R := Rabs (t - 1).

Example C127_example : valid_knots sine_times (map corner sine_times) /\ spaced 1 sine_times /\ steady 1 corner 0 2 /\
  exists r, set_data4 pivoted 3 c_new sine_times (map corner sine_times) 3 (-3) = Ok (true, r) /\
    forall t, 0 <= t <= 2 -> exists p, get_position_at_time 3 r t = Ok p /\ Rabs (p - Rabs (t - 1)) <= 5 / 4.
Proof.
  assert (Hv : valid_knots sine_times (map corner sine_times)).
  { destruct sine_valid as [(A & B & _ & C) _]. split; [exact A|]. split; [exact B|]. split; [apply map_length|exact C]. }
  assert (Hf : steady 1 corner 0 2) by (intros s t _ _; rewrite Rmult_1_l; unfold corner; replace (s - t) with ((s - 1) - (t - 1)) by ring; apply Rabs_triang_inv2).
  split; [exact Hv|]. split; [apply sine_valid|]. split; [exact Hf|].
  destruct (C127_position pivoted c_new sine_times corner 3 (-3) 1 3 1 (proj1 C100_solver) Hv (proj2 sine_valid) Hf ltac:(lra)) as (r & E & A).
  - rewrite Rabs_pos_eq; lra.
  - rewrite Rabs_left; lra.
  - exists r. split; [exact E|]. intros t Ht. destruct (A t Ht) as (p & v & P & _ & B & _). exists p.
    cbn [nth sine_times] in P. rewrite Rminus_0_r in P. split; [exact P|]. unfold corner in B. lra.
Qed.
