(** * C100: fitting data taken from a known motion, over the reals *)

From Coq Require Import Reals Lra Lia.
From Coquelicot Require Import Coquelicot.
From Coq Require Import List Bool Arith ZArith QArith Qreals.
From Verif Require Import Base Num TimeInst Spline SplineSpec LinSpec BasicSolver SplineProofs
  Container ContainerSpec ContainerProofs SetDataSpec SetDataSys SetDataProofs SetDataExist SetDataTraj SetDataTop
  SetDataUnique Props_SetData Props_SetData2 SetDataBasic Props_Units ColPiv ColPivQ.
Import ListNotations.
Local Open Scope R_scope.

(** ** Specifications *)

(** Positions, read off a motion [g] that starts at the first knot. *)
Definition samples (g : R -> R) (knots : list R) : list R := map (fun k => g (k - nth 0 knots 0)) knots.

(** ** The solver *)

(** The column pivoting QR decomposition, in exact arithmetic, solves every solvable
    system, and always with the columns it picks from the matrix: all theorems about
    exact and about basic solvers apply to it. *)
Theorem C100_solver : exact_solver pivoted /\ basic_solver pivoted.
Proof. split; [exact pivoted_exact|exact pivoted_basic]. Qed.

(** ** What is reproduced *)

Lemma samples_nth g knots i : (i < length knots)%nat -> nth i (samples g knots) 0 = g (nth i knots 0 - nth 0 knots 0).
Proof.
  intros L. unfold samples.
  rewrite (nth_indep _ 0 ((fun k => g (k - nth 0 knots 0)) 0)) by now rewrite map_length.
  apply (map_nth (fun k => g (k - nth 0 knots 0))).
Qed.

Definition taylor3 (cs : list R) (s : R) : list R :=
  [nth 0 cs 0; 3 * nth 0 cs 0 * s + nth 1 cs 0; 3 * nth 0 cs 0 * s ^ 2 + 2 * nth 1 cs 0 * s + nth 2 cs 0; poly 3 cs s].

Lemma taylor3_polys cs s u : length cs = 4%nat ->
  poly 3 (taylor3 cs s) u = poly 3 cs (s + u) /\ dpoly 3 (taylor3 cs s) u = dpoly 3 cs (s + u) /\
  ddpoly 3 (taylor3 cs s) u = ddpoly 3 cs (s + u).
Proof.
  intros L. destruct cs as [|c3 [|c2 [|c1 [|c0 [|? ?]]]]]; try discriminate L.
  unfold taylor3, poly, dpoly, ddpoly; simpl. repeat split; ring.
Qed.

Lemma restrict_inside x d : 0 <= x <= d -> restrict x d = x.
Proof. intros H. unfold restrict, Rmax, Rmin. repeat destruct (Rle_dec _ _); lra. Qed.

(** Positions alone, any order: data taken from uniform motion give that motion back. *)
Theorem C100_linear_reproduced : forall o (c : container R) knots a v,
  (1 <= o <= 5)%nat -> valid_knots knots (samples (fun t => a + v * t) knots) ->
  exists r, set_data2 o c knots (samples (fun t => a + v * t) knots) = Ok (true, r) /\
    forall t, 0 <= t <= duration_of knots -> get_position_at_time o r t = Ok (a + v * t).
Proof.
  intros o c knots a v Ho Hv. destruct (C28_two_arguments o c knots _ Ho Hv) as (r & E & L). exists r. split; [exact E|].
  destruct Hv as (Hlen & Hi & _ & _). pose proof (diffs_length knots) as LD. intros t Ht.
  destruct (charge_exists knots t Hlen) as (i & Hii & B & C).
  assert (Lo : nth i knots 0 - nth 0 knots 0 <= t) by (destruct B as [->|B]; lra).
  assert (Hi2 : t <= nth (i + 1) knots 0 - nth 0 knots 0).
  { destruct C as [C|C]; [lra|]. rewrite LD in C. unfold duration_of in Ht. rewrite <- C in Ht. apply Ht. }
  pose proof (Hi i ltac:(lia)) as Hp. pose proof (L i (t + nth 0 knots 0) ltac:(lia) ltac:(lra)) as X.
  replace (t + nth 0 knots 0 - nth 0 knots 0) with t in X by ring. rewrite X, !samples_nth by lia. f_equal. field. lra.
Qed.

(** Order 3: data taken from a cubic polynomial, with its velocities at both ends, give
    that polynomial back, whatever the knots and whatever the exact solver. *)
Theorem C100_cubic_reproduced : forall (solve : solver R) c knots cs,
  exact_solver solve -> valid_knots knots (samples (poly 3 cs) knots) -> length cs = 4%nat ->
  exists r, set_data4 solve 3 c knots (samples (poly 3 cs) knots) (dpoly 3 cs 0) (dpoly 3 cs (duration_of knots)) = Ok (true, r) /\
    forall t, 0 <= t <= duration_of knots ->
      position 3 r t = poly 3 cs t /\ velocity 3 r t = dpoly 3 cs t /\ acceleration 3 r t = ddpoly 3 cs t.
Proof.
  intros solve c knots cs Hs Hv Lc. pose proof Hv as (Hlen & Hi & LP & Hsm).
  destruct (set_data4_stores solve 3 c knots _ (dpoly 3 cs 0) (dpoly 3 cs (duration_of knots)) Hs ltac:(lia) Hv) as (s & Sg & G & E).
  eexists. split; [exact E|]. pose proof (diffs_length knots) as LD. set (n := length (diffs knots)) in *.
  assert (HD : positive (diffs knots)) by now apply diffs_positive.
  set (f i := taylor3 cs (nth i knots 0 - nth 0 knots 0)).
  assert (Hf := fun i u => taylor3_polys cs (nth i knots 0 - nth 0 knots 0) u Lc).
  assert (X : s = map f (seq 0 n)).
  { destruct (good_cubic_intro (diffs knots) (samples (poly 3 cs) knots) (dpoly 3 cs 0) (dpoly 3 cs (duration_of knots)) f n) as [G1 G2];
      [reflexivity|lia|reflexivity| | | | | |].
    - unfold f. destruct (Hf 0%nat 0) as (-> & _). rewrite samples_nth by lia. f_equal. ring.
    - unfold f. destruct (Hf 0%nat 0) as (_ & -> & _). f_equal. ring.
    - unfold f. destruct (Hf (n - 1)%nat (nth (n - 1) (diffs knots) 0)) as (-> & _). rewrite samples_nth, diffs_nth by lia.
      replace (n - 1 + 1)%nat with n by lia. f_equal. ring.
    - unfold f. destruct (Hf (n - 1)%nat (nth (n - 1) (diffs knots) 0)) as (_ & -> & _). rewrite diffs_nth by lia.
      replace (n - 1 + 1)%nat with (length knots - 1)%nat by lia. f_equal. unfold duration_of. ring.
    - intros i L. unfold f. destruct (Hf i (nth i (diffs knots) 0)) as (-> & -> & ->).
      destruct (Hf (i + 1)%nat 0) as (-> & -> & ->). rewrite samples_nth, diffs_nth by lia.
      replace (nth i knots 0 - nth 0 knots 0 + (nth (i + 1) knots 0 - nth i knots 0)) with (nth (i + 1) knots 0 - nth 0 knots 0) by ring.
      rewrite Rplus_0_r. auto.
    - apply (good_cubic_unique (diffs knots) (samples (poly 3 cs) knots) (dpoly 3 cs 0) (dpoly 3 cs (duration_of knots))); auto.
      fold n. lia. }
  intros t Ht. destruct (charge_exists knots t Hlen) as (i & Hii & B & C).
  destruct (any_time_in knots t i Hlen Hi Hsm Hii B C 3%nat s ltac:(lia) Sg) as (-> & -> & ->).
  rewrite restrict_inside.
  - rewrite X, nth_map_seq by exact Hii. unfold f.
    destruct (Hf i (t - (nth i knots 0 - nth 0 knots 0))) as (-> & -> & ->).
    replace (nth i knots 0 - nth 0 knots 0 + (t - (nth i knots 0 - nth 0 knots 0))) with t by ring. auto.
  - fold n in Hii, C. rewrite diffs_nth by lia. unfold duration_of in Ht. split.
    + destruct B as [->|B]; lra.
    + destruct C as [C|C]; [lra|]. replace (i + 1)%nat with (length knots - 1)%nat by lia. lra.
Qed.

(** Order 5 with two knots: likewise for quintic polynomials. *)
Lemma quintic_unique T cs cs' : 0 < T -> length cs = 6%nat -> length cs' = 6%nat ->
  poly 5 cs 0 = poly 5 cs' 0 -> dpoly 5 cs 0 = dpoly 5 cs' 0 -> ddpoly 5 cs 0 = ddpoly 5 cs' 0 ->
  poly 5 cs T = poly 5 cs' T -> dpoly 5 cs T = dpoly 5 cs' T -> ddpoly 5 cs T = ddpoly 5 cs' T -> cs = cs'.
Proof.
  intros HT L L'.
  destruct cs as [|c5 [|c4 [|c3 [|c2 [|c1 [|c0 [|? ?]]]]]]]; try discriminate L.
  destruct cs' as [|d5 [|d4 [|d3 [|d2 [|d1 [|d0 [|? ?]]]]]]]; try discriminate L'.
  unfold poly, dpoly, ddpoly. simpl. intros E1 E2 E3 E4 E5 E6.
  assert (c0 = d0) by lra. assert (c1 = d1) by lra. assert (c2 = d2) by lra. subst d0 d1 d2.
  set (x := (c3 - d3) * T ^ 3). set (y := (c4 - d4) * T ^ 4). set (z := (c5 - d5) * T ^ 5).
  assert (F1 : x + y + z = 0) by (unfold x, y, z; simpl; lra).
  assert (F2 : 3 * x + 4 * y + 5 * z = 0).
  { replace (3 * x + 4 * y + 5 * z) with (T * (3 * (c3 - d3) * T ^ 2 + 4 * (c4 - d4) * T ^ 3 + 5 * (c5 - d5) * T ^ 4))
      by (unfold x, y, z; simpl; ring).
    replace (3 * (c3 - d3) * T ^ 2 + 4 * (c4 - d4) * T ^ 3 + 5 * (c5 - d5) * T ^ 4) with 0 by (simpl; lra). ring. }
  assert (F3 : 6 * x + 12 * y + 20 * z = 0).
  { replace (6 * x + 12 * y + 20 * z) with (T ^ 2 * (6 * (c3 - d3) * T + 12 * (c4 - d4) * T ^ 2 + 20 * (c5 - d5) * T ^ 3))
      by (unfold x, y, z; simpl; ring).
    replace (6 * (c3 - d3) * T + 12 * (c4 - d4) * T ^ 2 + 20 * (c5 - d5) * T ^ 3) with 0 by (simpl; lra). ring. }
  assert (Z : forall a k, a * T ^ k = 0 -> a = 0).
  { intros a k E. apply Rmult_integral in E as [E|E]; [exact E|]. pose proof (pow_lt T k HT). lra. }
  assert (x = 0) by lra. assert (y = 0) by lra. assert (z = 0) by lra.
  assert (c3 - d3 = 0) by (eapply Z; eassumption). assert (c4 - d4 = 0) by (eapply Z; eassumption).
  assert (c5 - d5 = 0) by (eapply Z; eassumption).
  repeat (apply f_equal2; [lra|]). reflexivity.
Qed.

Theorem C100_quintic_reproduced : forall (solve : solver R) c knots cs,
  exact_solver solve -> valid_knots knots (samples (poly 5 cs) knots) -> length knots = 2%nat -> length cs = 6%nat ->
  exists r, set_data6 solve 5 c knots (samples (poly 5 cs) knots) (dpoly 5 cs 0) (ddpoly 5 cs 0)
      (dpoly 5 cs (duration_of knots)) (ddpoly 5 cs (duration_of knots)) = Ok (true, r) /\
    forall t, 0 <= t <= duration_of knots ->
      position 5 r t = poly 5 cs t /\ velocity 5 r t = dpoly 5 cs t /\ acceleration 5 r t = ddpoly 5 cs t.
Proof.
  intros solve c knots cs Hs Hv L2 Lc. pose proof Hv as (Hlen & Hi & LP & Hsm).
  destruct (set_data6_stores solve 5 c knots _ (dpoly 5 cs 0) (ddpoly 5 cs 0) (dpoly 5 cs (duration_of knots))
    (ddpoly 5 cs (duration_of knots)) Hs Hv ltac:(auto)) as (s & Sg & G & E).
  eexists. split; [exact E|].
  assert (LD : length (diffs knots) = 1%nat) by (rewrite diffs_length; lia).
  assert (ED : nth 0 (diffs knots) 0 = duration_of knots).
  { rewrite diffs_nth by lia. unfold duration_of. now rewrite L2. }
  assert (HD : 0 < duration_of knots) by (rewrite <- ED; apply positive_nth; auto; lia).
  assert (X : nth 0 s [] = cs).
  { rewrite LD in *. destruct G as ((A1 & A2 & A3) & (B1 & B2 & B3) & _). cbn [Nat.sub] in *. rewrite ED in *.
    rewrite samples_nth in A1 by lia. rewrite samples_nth in B1 by lia.
    apply (quintic_unique (duration_of knots)); auto.
    - exact (seg_len 5 1 s 0 Sg ltac:(lia)).
    - rewrite A1. f_equal. ring.
    - rewrite B1. f_equal. unfold duration_of. rewrite L2. reflexivity. }
  intros t Ht. destruct (charge_exists knots t Hlen) as (i & Hii & B & C).
  destruct (any_time_in knots t i Hlen Hi Hsm Hii B C 5%nat s ltac:(lia) Sg) as (-> & -> & ->).
  assert (i = 0%nat) by lia. subst i. rewrite ED, X.
  replace (t - (nth 0 knots 0 - nth 0 knots 0)) with t by ring. rewrite restrict_inside by exact Ht. auto.
Qed.

(** ** What is not reproduced *)

(** Running the solver over the rationals. *)
Lemma fit_pivoted c knots P v0 a0 vT aT AQ bQ xQ : valid_knots knots P ->
  let n := length (diffs knots) in
  sys_matrix 5 n (diffs knots) P [v0; a0] [vT; aT] = map vec_R AQ ->
  sys_target 5 n (diffs knots) P [v0; a0] [vT; aT] = vec_R bQ ->
  pivoted (n * 6) AQ bQ = xQ ->
  set_data6 pivoted 5 c knots P v0 a0 vT aT = Ok (true, holding (splines_of (chunks 6 n (vec_R xQ)) (diffs knots))).
Proof.
  intros Hv n EA Eb Ex.
  pose proof (fit_stores pivoted 5 2 c knots P [v0; a0] [vT; aT] ltac:(right; auto) Hv eq_refl eq_refl) as F.
  cbv zeta in F. fold n in F. cbn [fit Nat.add] in F. rewrite F by apply pivoted_length.
  rewrite EA, Eb, pivoted_R, Ex. reflexivity.
Qed.

Ltac entries :=
  lazymatch goal with
  | |- @eq (list _) _ _ => first [reflexivity | apply f_equal2; entries]
  | |- @eq R _ _ => unfold Q2R; cbn; numR; lra
  end.

Definition mat_39 : list (list Z) :=
  [[0; 0; 0; 0; 0; 1; 0; 0; 0; 0; 0; 0];
   [0; 0; 0; 0; 1; 0; 0; 0; 0; 0; 0; 0];
   [0; 0; 0; 2; 0; 0; 0; 0; 0; 0; 0; 0];
   [0; 0; 0; 0; 0; 0; 7776; 1296; 216; 36; 6; 1];
   [0; 0; 0; 0; 0; 0; 6480; 864; 108; 12; 1; 0];
   [0; 0; 0; 0; 0; 0; 4320; 432; 36; 2; 0; 0];
   [243; 81; 27; 9; 3; 1; 0; 0; 0; 0; 0; 0];
   [0; 0; 0; 0; 0; 0; 0; 0; 0; 0; 0; 1];
   [405; 108; 27; 6; 1; 0; 0; 0; 0; 0; (-1); 0];
   [540; 108; 18; 2; 0; 0; 0; 0; 0; (-2); 0; 0]]%Z.

Definition mat_13 : list (list Z) :=
  [[0; 0; 0; 0; 0; 1; 0; 0; 0; 0; 0; 0];
   [0; 0; 0; 0; 1; 0; 0; 0; 0; 0; 0; 0];
   [0; 0; 0; 2; 0; 0; 0; 0; 0; 0; 0; 0];
   [0; 0; 0; 0; 0; 0; 32; 16; 8; 4; 2; 1];
   [0; 0; 0; 0; 0; 0; 80; 32; 12; 4; 1; 0];
   [0; 0; 0; 0; 0; 0; 160; 48; 12; 2; 0; 0];
   [1; 1; 1; 1; 1; 1; 0; 0; 0; 0; 0; 0];
   [0; 0; 0; 0; 0; 0; 0; 0; 0; 0; 0; 1];
   [5; 4; 3; 2; 1; 0; 0; 0; 0; 0; (-1); 0];
   [20; 12; 6; 2; 0; 0; 0; 0; 0; (-2); 0; 0]]%Z.

Lemma valid_39 : valid_knots [0; 3; 9] [0; 3; 9].
Proof. repeat split; try (cbn; lia). intros [|[|i]] Hi; cbn in *; try lia; lra. Qed.

Lemma valid_13 : valid_knots [0; 1; 3] [0; 3; 9].
Proof. repeat split; try (cbn; lia). intros [|[|i]] Hi; cbn in *; try lia; lra. Qed.

Lemma fit_39 c : set_data6 pivoted 5 c [0; 3; 9] [0; 3; 9] 1 0 1 0 =
  Ok (true, holding (splines_of [[1 / 27; - 7 / 27; 4 / 9; 0; 1; 0]; [1 / 432; - 1 / 27; 1 / 6; 0; 0; 3]] [3; 6])).
Proof.
  assert (ED : diffs [0; 3; 9] = [3; 6]) by (unfold diffs; cbn; repeat (apply f_equal2; [ring|]); reflexivity).
  rewrite (fit_pivoted c [0; 3; 9] [0; 3; 9] 1 0 1 0 (map (map inject_Z) mat_39) (map inject_Z [0; 1; 0; 9; 1; 0; 3; 3; 0; 0]%Z)
    [Qmake 1 27; Qmake (-7) 27; Qmake 4 9; Qmake 0 1; Qmake 1 1; Qmake 0 1;
     Qmake 1 432; Qmake (-1) 27; Qmake 1 6; Qmake 0 1; Qmake 0 1; Qmake 3 1] valid_39); rewrite ?ED.
  - do 3 f_equal. unfold splines_of. cbn [length seq map chunks vec_R firstn skipn nth].
    repeat (apply f_equal2; [apply f_equal2; [|reflexivity]|]); try reflexivity;
      unfold Q2R; cbn; repeat (apply f_equal2; [lra|]); reflexivity.
  - cbn -[Q2R npow2 npow3 npow4 npow5]. unfold npow2, npow3, npow4, npow5. entries.
  - cbn -[Q2R]. entries.
  - vm_compute. reflexivity.
Qed.

Lemma fit_13 c : set_data6 pivoted 5 c [0; 1; 3] [0; 3; 9] 3 0 3 0 =
  Ok (true, holding (splines_of [[0; 0; 0; 0; 3; 0]; [0; 0; 0; 0; 3; 3]] [1; 2])).
Proof.
  assert (ED : diffs [0; 1; 3] = [1; 2]) by (unfold diffs; cbn; repeat (apply f_equal2; [ring|]); reflexivity).
  rewrite (fit_pivoted c [0; 1; 3] [0; 3; 9] 3 0 3 0 (map (map inject_Z) mat_13) (map inject_Z [0; 3; 0; 9; 3; 0; 3; 3; 0; 0]%Z)
    [Qmake 0 1; Qmake 0 1; Qmake 0 1; Qmake 0 1; Qmake 3 1; Qmake 0 1;
     Qmake 0 1; Qmake 0 1; Qmake 0 1; Qmake 0 1; Qmake 3 1; Qmake 3 1] valid_13); rewrite ?ED.
  - do 3 f_equal. unfold splines_of. cbn [length seq map chunks vec_R firstn skipn nth].
    repeat (apply f_equal2; [apply f_equal2; [|reflexivity]|]); try reflexivity;
      unfold Q2R; cbn; repeat (apply f_equal2; [lra|]); reflexivity.
  - cbn -[Q2R npow2 npow3 npow4 npow5]. unfold npow2, npow3, npow4, npow5. entries.
  - cbn -[Q2R]. entries.
  - vm_compute. reflexivity.
Qed.

(** Evaluating one segment of two. *)
Lemma two_segs D0 D1 s0 s1 t i : 0 < D0 -> 0 < D1 -> length s0 = 6%nat -> length s1 = 6%nat ->
  (i = 0%nat /\ 0 <= t < D0) \/ (i = 1%nat /\ D0 <= t < D0 + D1) ->
  let r := holding (splines_of [s0; s1] [D0; D1]) in
  let cs := nth i [s0; s1] [] in let u := t - nth i [0; D0] 0 in
  position 5 r t = poly 5 cs u /\ velocity 5 r t = dpoly 5 cs u /\ acceleration 5 r t = ddpoly 5 cs u.
Proof.
  intros H0 H1 L0 L1 Hi r cs u. set (D := [D0; D1]). set (segs := [s0; s1]).
  assert (HD : positive D) by (intros [|[|j]] Hj; cbn in *; try lia; assumption).
  assert (Sg : segments 5 (length D) segs) by (split; [reflexivity|repeat constructor; assumption]).
  assert (St : start (splines_of segs D) 0 = 0 /\ start (splines_of segs D) 1 = D0 /\ start (splines_of segs D) 2 = D0 + D1).
  { assert (X0 : start (splines_of segs D) 0 = 0) by apply start_0.
    pose proof (traj_start_S 5 D segs 0 ltac:(cbn; lia)) as X1.
    pose proof (traj_start_S 5 D segs 1 ltac:(cbn; lia)) as X2. cbn [Nat.add] in X1, X2.
    rewrite X0 in X1. rewrite X1 in X2. unfold D in X1 at 2. unfold D in X2 at 2 3. cbn [nth] in X1, X2.
    split; [exact X0|]. split; lra. }
  destruct St as (S0 & S1 & S2).
  destruct (half_open 5 D segs ltac:(lia) ltac:(cbn; lia) ltac:(cbn; lia) HD Sg i t) as (A & B & C).
  - cbn. lia.
  - destruct Hi as [[-> Ht]|[-> Ht]]; cbn [Nat.add]; rewrite ?S0, ?S1, ?S2; lra.
  - unfold position, velocity, acceleration, r. fold D segs. rewrite A, B, C. cbn [value].
    assert (Eu : t - start (splines_of segs D) i = u) by (unfold u; destruct Hi as [[-> _]|[-> _]]; cbn [nth]; rewrite ?S0, ?S1; ring).
    rewrite Eu. auto.
Qed.

(** Data taken from a uniform motion: the fitted quintic curve stands still at the
    inner knot. *)
Theorem C100_uniform_refuted : exists knots r tk t,
  valid_knots knots (samples (fun t => t) knots) /\
  set_data6 pivoted 5 c_new knots (samples (fun t => t) knots) 1 0 1 0 = Ok (true, r) /\
  In tk knots /\ 0 < tk < duration_of knots /\ velocity 5 r tk = 0 /\ acceleration 5 r tk = 0 /\
  0 < t < duration_of knots /\ position 5 r t <> t.
Proof.
  assert (Es : samples (fun t => t) [0; 3; 9] = [0; 3; 9]).
  { unfold samples. cbn. repeat (apply f_equal2; [ring|]). reflexivity. }
  eexists [0; 3; 9], _, 3, 4. rewrite Es.
  split; [exact valid_39|]. split; [apply fit_39|]. split; [cbn; auto|].
  split; [unfold duration_of; cbn; lra|].
  set (s0 := [1 / 27; - 7 / 27; 4 / 9; 0; 1; 0]). set (s1 := [1 / 432; - 1 / 27; 1 / 6; 0; 0; 3]).
  destruct (two_segs 3 6 s0 s1 3 1) as (_ & -> & ->); try reflexivity; try lra; [right; split; [reflexivity|lra]|].
  destruct (two_segs 3 6 s0 s1 4 1) as (-> & _); try reflexivity; try lra; [right; split; [reflexivity|lra]|].
  unfold duration_of, s0, s1, poly, dpoly, ddpoly. cbn. repeat split; lra.
Qed.

(** Stretching time does change the shape of a quintic curve. *)
Theorem C100_stretch_refuted : exists knots P v a r r' t,
  valid_knots knots P /\ 0 < a /\
  set_data6 pivoted 5 c_new knots P v 0 v 0 = Ok (true, r) /\
  set_data6 pivoted 5 c_new (stretched a knots) P (v / a) 0 (v / a) 0 = Ok (true, r') /\
  0 < t < duration_of knots /\
  position 5 r' (a * t) <> position 5 r t /\ velocity 5 r' (a * nth 1 knots 0) <> velocity 5 r (nth 1 knots 0) / a.
Proof.
  assert (Es : stretched 3 [0; 1; 3] = [0; 3; 9]).
  { unfold stretched. cbn. repeat (apply f_equal2; [ring|]). reflexivity. }
  eexists [0; 1; 3], [0; 3; 9], 3, 3, _, _, (4 / 3). rewrite Es. replace (3 / 3) with 1 by field.
  split; [exact valid_13|]. split; [lra|]. split; [apply fit_13|]. split; [apply fit_39|].
  split; [unfold duration_of; cbn; lra|]. cbn [nth].
  replace (3 * (4 / 3)) with 4 by field. replace (3 * 1) with 3 by ring.
  destruct (two_segs 3 6 [1 / 27; - 7 / 27; 4 / 9; 0; 1; 0] [1 / 432; - 1 / 27; 1 / 6; 0; 0; 3] 4 1) as (-> & _);
    try reflexivity; try lra; [right; split; [reflexivity|lra]|].
  destruct (two_segs 3 6 [1 / 27; - 7 / 27; 4 / 9; 0; 1; 0] [1 / 432; - 1 / 27; 1 / 6; 0; 0; 3] 3 1) as (_ & -> & _);
    try reflexivity; try lra; [right; split; [reflexivity|lra]|].
  destruct (two_segs 1 2 [0; 0; 0; 0; 3; 0] [0; 0; 0; 0; 3; 3] (4 / 3) 1) as (-> & _);
    try reflexivity; try lra; [right; split; [reflexivity|lra]|].
  destruct (two_segs 1 2 [0; 0; 0; 0; 3; 0] [0; 0; 0; 0; 3; 3] 1 1) as (_ & -> & _);
    try reflexivity; try lra; [right; split; [reflexivity|lra]|].
  unfold poly, dpoly. cbn. split; lra.
Qed.

(** ** Examples *)

Example C100_example : exact_solver pivoted /\ length [1; 2; 0; 4] = 4%nat /\ length [1; 0; 0; 2; 0; 4] = 6%nat /\
  valid_knots [0; 1; 3] (samples (poly 3 [1; 2; 0; 4]) [0; 1; 3]) /\
  valid_knots [0; 1] (samples (poly 5 [1; 0; 0; 2; 0; 4]) [0; 1]) /\
  valid_knots [0; 1; 3] (samples (fun t => 2 + 5 * t) [0; 1; 3]).
Proof.
  split; [exact pivoted_exact|]. split; [reflexivity|]. split; [reflexivity|].
  split; [|split]; [destruct valid_example as (A & B & _ & D)|destruct valid_example_two as (A & B & _ & D)|
    destruct valid_example as (A & B & _ & D)]; repeat split; auto.
Qed.
