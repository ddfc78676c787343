(** * C99: changing the units of a spline fit, over the reals *)

From Coq Require Import Reals Lra Lia.
From Coquelicot Require Import Coquelicot.
From Coq Require Import List Bool Arith ZArith.
From Verif Require Import Base Num TimeInst Spline SplineSpec LinSpec BasicSolver SplineProofs
  Container ContainerSpec ContainerProofs SetDataSpec SetDataSys SetDataProofs SetDataExist SetDataTraj SetDataTop
  SetDataUnique Props_SetData Props_SetData2 SetDataBasic SplineCurves Props_SplineCurves.
Import ListNotations.
Local Open Scope R_scope.

(** ** Specifications *)

(** All entries moved by the same amount. *)
Definition moved (d : R) (l : list R) : list R := map (fun p => p + d) l.
Definition stretched (a : R) (l : list R) : list R := map (fun p => a * p) l.

(** ** Lists *)

Lemma moved_nth d l i : (i < length l)%nat -> nth i (moved d l) 0 = nth i l 0 + d.
Proof.
  intros H. unfold moved. rewrite (nth_indep _ 0 ((fun p => p + d) 0)) by now rewrite map_length.
  apply (map_nth (fun p => p + d)).
Qed.

Lemma moved_combination d l : moved d l = combination 1 d l (repeat 1 (length l)).
Proof.
  induction l as [|p l IH]; [reflexivity|]. cbn [moved map length repeat combination]. fold (moved d l). rewrite IH.
  f_equal. ring.
Qed.

Lemma same_combination d l : combination 1 d l (repeat 0 (length l)) = l.
Proof. induction l as [|p l IH]; [reflexivity|]. cbn [length repeat combination]. rewrite IH. f_equal. ring. Qed.

Lemma stretched_nth a l i : nth i (stretched a l) 0 = a * nth i l 0.
Proof.
  replace 0 with (a * 0) at 1 by ring. unfold stretched. apply (map_nth (fun p => a * p)).
Qed.

Lemma valid_combination knots P Q x y : valid_knots knots P -> valid_knots knots Q -> valid_knots knots (combination x y P Q).
Proof.
  intros (Hlen & Hi & LP & Hsm) (_ & _ & LQ & _). repeat split; auto. rewrite combination_length; lia.
Qed.

(** ** General versions *)

Lemma superposition_general (solve : solver R) o k c c1 c2 knots P Q va0 vaT wa0 waT x y :
  basic_solver solve -> suits o k knots -> valid_knots knots P -> valid_knots knots Q ->
  length va0 = k -> length vaT = k -> length wa0 = k -> length waT = k ->
  exists r1 r2 r, fit solve o c1 knots P va0 vaT = Ok (true, r1) /\ fit solve o c2 knots Q wa0 waT = Ok (true, r2) /\
    fit solve o c knots (combination x y P Q) (combination x y va0 wa0) (combination x y vaT waT) = Ok (true, r) /\
    forall t, position o r t = x * position o r1 t + y * position o r2 t /\
              velocity o r t = x * velocity o r1 t + y * velocity o r2 t /\
              acceleration o r t = x * acceleration o r1 t + y * acceleration o r2 t.
Proof.
  intros Hb Hs Hv Hv' Lv0 LvT Lw0 LwT. pose proof (suits_order _ _ _ Hs) as [Ho _].
  pose proof Hv as (Hlen & Hi & LP & Hsm). pose proof Hv' as (_ & _ & LQ & _). pose proof (diffs_length knots) as LD.
  destruct (fit_basis solve o k knots Hb Hs Hlen Hi Hsm) as (B & HB). cbv zeta in HB.
  destruct (HB P va0 vaT ltac:(lia) Lv0 LvT) as (s1 & S1 & G1 & U1 & E1 & _).
  destruct (HB Q wa0 waT ltac:(lia) Lw0 LwT) as (s2 & S2 & G2 & U2 & E2 & _).
  destruct (HB (combination x y P Q) (combination x y va0 wa0) (combination x y vaT waT)) as (s3 & S3 & G3 & U3 & E3 & Un);
    [rewrite combination_length; lia|rewrite combination_length; lia|rewrite combination_length; lia|].
  destruct (good_combination o (length (diffs knots)) (diffs knots) P Q va0 wa0 vaT waT s1 s2 x y ltac:(lia) ltac:(lia) ltac:(lia) ltac:(lia) ltac:(lia) S1 S2 G1 G2)
    as [S4 G4].
  pose proof (Un _ S4 G4 (supported_combination B o _ x y s1 s2 S1 S2 S4 U1 U2)) as <-.
  do 3 eexists. split; [apply E1|]. split; [apply E2|]. split; [apply E3|]. intros t.
  destruct (any_time knots t Hlen Hi Hsm) as (i & Hii & A). set (u := restrict _ _) in *.
  destruct (A o s1 ltac:(lia) S1) as (-> & -> & ->). destruct (A o s2 ltac:(lia) S2) as (-> & -> & ->).
  destruct (A o _ ltac:(lia) S4) as (-> & -> & ->). unfold combined. rewrite nth_map_seq by exact Hii.
  apply combination_polys; [lia| |]; eapply seg_len; eauto.
Qed.

Lemma constant_general (solve : solver R) o k knots p : basic_solver solve -> suits o k knots ->
  (2 <= length knots)%nat -> increasing knots -> (Z.of_nat (length knots) < 2 ^ 29)%Z -> p <> 0 ->
  forall c, fit solve o c knots (repeat p (length knots)) (repeat 0 k) (repeat 0 k) =
    Ok (true, holding (splines_of (map (fun _ => constant_seg o p) (seq 0 (length (diffs knots)))) (diffs knots))).
Proof.
  intros Hb Hs Hlen Hi Hsm Hp c. pose proof (suits_order _ _ _ Hs) as [Ho _]. pose proof (diffs_length knots) as LD.
  destruct (fit_basis solve o k knots Hb Hs Hlen Hi Hsm) as (B & HB). cbv zeta in HB.
  destruct (HB (repeat p (length knots)) (repeat 0 k) (repeat 0 k)) as (s & Sg & G & U & E & Un); try apply repeat_length.
  destruct (constant_good o (length (diffs knots)) (diffs knots) p k (length knots)) as [S1 G1]; [lia|lia|lia|].
  rewrite E, <- (Un _ S1 G1); [reflexivity|]. apply constant_supported.
  apply (constant_columns B o _ (diffs knots) p (repeat 0 k) (repeat 0 k) s (length knots)); auto; lia.
Qed.

Lemma constant_value o p knots t : (3 <= o <= 5)%nat -> (2 <= length knots)%nat -> increasing knots ->
  (Z.of_nat (length knots) < 2 ^ 29)%Z ->
  let r := holding (splines_of (map (fun _ => constant_seg o p) (seq 0 (length (diffs knots)))) (diffs knots)) in
  position o r t = p /\ velocity o r t = 0 /\ acceleration o r t = 0.
Proof.
  intros Ho Hlen Hi Hsm r. destruct (any_time knots t Hlen Hi Hsm) as (i & Hii & A).
  destruct (A o (map (fun _ => constant_seg o p) (seq 0 (length (diffs knots))))) as (X & Y & Z).
  { lia. } { apply segments_map. intros. apply constant_length. }
  unfold r. rewrite X, Y, Z, nth_map_seq by exact Hii. apply constant_polys. lia.
Qed.

Lemma offset_general (solve : solver R) o k c c' knots P va0 vaT d :
  basic_solver solve -> suits o k knots -> valid_knots knots P -> length va0 = k -> length vaT = k ->
  exists r r', fit solve o c knots P va0 vaT = Ok (true, r) /\ fit solve o c' knots (moved d P) va0 vaT = Ok (true, r') /\
    forall t, position o r' t = position o r t + d /\ velocity o r' t = velocity o r t /\
              acceleration o r' t = acceleration o r t.
Proof.
  intros Hb Hs Hv L0 LT. pose proof Hv as (Hlen & Hi & LP & Hsm). pose proof (suits_order _ _ _ Hs) as [Ho _].
  assert (Hv1 : valid_knots knots (repeat 1 (length knots))) by (repeat split; auto; apply repeat_length).
  destruct (superposition_general solve o k c' c c knots P (repeat 1 (length knots)) va0 vaT (repeat 0 k) (repeat 0 k) 1 d
    Hb Hs Hv Hv1 L0 LT (repeat_length _ _) (repeat_length _ _)) as (r1 & r2 & r & E1 & E2 & E3 & H).
  rewrite (constant_general solve o k knots 1 Hb Hs Hlen Hi Hsm ltac:(lra)) in E2. 
  pose proof (f_equal (fun e => match e with Ok (_, q) => q | _ => r2 end) E2) as X. cbn beta iota in X.
  exists r1, r. split; [exact E1|]. split.
  - rewrite moved_combination. rewrite LP.
    assert (K0 : combination 1 d va0 (repeat 0 k) = va0) by (rewrite <- L0; apply same_combination).
    assert (KT : combination 1 d vaT (repeat 0 k) = vaT) by (rewrite <- LT; apply same_combination).
    rewrite K0, KT in E3. exact E3.
  - intros t. destruct (H t) as (-> & -> & ->).
    destruct (constant_value o 1 knots t Ho Hlen Hi Hsm) as (Y1 & Y2 & Y3). rewrite <- X, Y1, Y2, Y3. repeat split; ring.
Qed.

(** ** Superposition *)

(** Positions, boundary velocities and accelerations add up and scale. *)
Theorem C99_superposition_four : forall (solve : solver R) o c c1 c2 knots P Q v0 vT w0 wT x y,
  basic_solver solve -> (3 <= o <= 5)%nat -> valid_knots knots P -> valid_knots knots Q ->
  exists r1 r2 r, set_data4 solve o c1 knots P v0 vT = Ok (true, r1) /\
    set_data4 solve o c2 knots Q w0 wT = Ok (true, r2) /\
    set_data4 solve o c knots (combination x y P Q) (x * v0 + y * w0) (x * vT + y * wT) = Ok (true, r) /\
    forall t, position o r t = x * position o r1 t + y * position o r2 t /\
              velocity o r t = x * velocity o r1 t + y * velocity o r2 t /\
              acceleration o r t = x * acceleration o r1 t + y * acceleration o r2 t.
Proof.
  intros solve o c c1 c2 knots P Q v0 vT w0 wT x y Hb Ho Hv Hv'.
  exact (superposition_general solve o 1 c c1 c2 knots P Q [v0] [vT] [w0] [wT] x y Hb ltac:(left; auto) Hv Hv'
    eq_refl eq_refl eq_refl eq_refl).
Qed.

Theorem C99_superposition : forall (solve : solver R) o c c1 c2 knots P Q v0 a0 vT aT w0 b0 wT bT x y,
  basic_solver solve -> (3 <= o <= 5)%nat -> valid_knots knots P -> valid_knots knots Q ->
  exists r1 r2 r, set_data6 solve o c1 knots P v0 a0 vT aT = Ok (true, r1) /\
    set_data6 solve o c2 knots Q w0 b0 wT bT = Ok (true, r2) /\
    set_data6 solve o c knots (combination x y P Q) (x * v0 + y * w0) (x * a0 + y * b0)
      (x * vT + y * wT) (x * aT + y * bT) = Ok (true, r) /\
    forall t, position o r t = x * position o r1 t + y * position o r2 t /\
              velocity o r t = x * velocity o r1 t + y * velocity o r2 t /\
              acceleration o r t = x * acceleration o r1 t + y * acceleration o r2 t.
Proof.
  intros solve o c c1 c2 knots P Q v0 a0 vT aT w0 b0 wT bT x y Hb Ho Hv Hv'.
  pose proof Hv as (Hlen & Hi & LP & Hsm).
  destruct (Nat.eq_dec o 5) as [->|H5]; [|destruct (Nat.eq_dec o 4) as [->|H4]; [destruct (Nat.eq_dec (length knots) 2) as [E2|N2]|]].
  2, 4: rewrite !set_data6_drops by lia; now apply C99_superposition_four.
  all: refine (superposition_general solve _ 2 c c1 c2 knots P Q [v0; a0] [vT; aT] [w0; b0] [wT; bT] x y Hb _ Hv Hv'
    eq_refl eq_refl eq_refl eq_refl); right; lia.
Qed.

(** ** Moving all positions *)

Lemma line_moved o knots P d i : (1 <= o <= 5)%nat -> (i + 1 < length P)%nat ->
  line o knots (moved d P) i = combination 1 d (line o knots P i) (constant_seg o 1).
Proof.
  intros Ho L. unfold line. rewrite !moved_nth by lia.
  replace (nth (i + 1) P 0 + d - (nth i P 0 + d)) with (nth (i + 1) P 0 - nth i P 0) by ring.
  unfold constant_seg. orders o; cbn;
    repeat (apply f_equal2; [ring|]); reflexivity.
Qed.

Theorem C99_offset_two : forall o c c' knots P d, (1 <= o <= 5)%nat -> valid_knots knots P ->
  exists r r', set_data2 o c knots P = Ok (true, r) /\ set_data2 o c' knots (moved d P) = Ok (true, r') /\
    forall t, position o r' t = position o r t + d /\ velocity o r' t = velocity o r t /\
              acceleration o r' t = acceleration o r t.
Proof.
  intros o c c' knots P d Ho Hv. pose proof Hv as (Hlen & Hi & LP & Hsm).
  assert (Hv' : valid_knots knots (moved d P)) by (repeat split; auto; unfold moved; now rewrite map_length).
  do 2 eexists. split; [now apply set_data2_stores|]. split; [now apply set_data2_stores|]. intros t.
  destruct (any_time knots t Hlen Hi Hsm) as (i & Hii & A). pose proof (diffs_length knots) as LD.
  destruct (A o _ Ho (lines_segments o knots P ltac:(lia))) as (-> & -> & ->).
  destruct (A o _ Ho (lines_segments o knots (moved d P) ltac:(lia))) as (-> & -> & ->).
  unfold lines. rewrite !nth_map_seq by lia. rewrite line_moved by lia. set (u := restrict _ _).
  destruct (combination_polys o 1 d (line o knots P i) (constant_seg o 1) u Ho) as (-> & -> & ->);
    [apply line_length; lia|apply constant_length|].
  destruct (constant_polys o 1 u Ho) as (-> & -> & ->). repeat split; ring.
Qed.

Theorem C99_offset_four : forall (solve : solver R) o c c' knots P v0 vT d,
  basic_solver solve -> (1 <= o <= 5)%nat -> valid_knots knots P ->
  exists r r', set_data4 solve o c knots P v0 vT = Ok (true, r) /\
    set_data4 solve o c' knots (moved d P) v0 vT = Ok (true, r') /\
    forall t, position o r' t = position o r t + d /\ velocity o r' t = velocity o r t /\
              acceleration o r' t = acceleration o r t.
Proof.
  intros solve o c c' knots P v0 vT d Hb Ho Hv. destruct (Nat.le_gt_cases o 2) as [H2|H2].
  - pose proof Hv as (Hlen & Hi & LP & Hsm). rewrite !set_data4_drops by (auto; lia). now apply C99_offset_two.
  - exact (offset_general solve o 1 c c' knots P [v0] [vT] d Hb ltac:(left; split; [reflexivity|lia]) Hv eq_refl eq_refl).
Qed.

Theorem C99_offset : forall (solve : solver R) o c c' knots P v0 a0 vT aT d,
  basic_solver solve -> (1 <= o <= 5)%nat -> valid_knots knots P ->
  exists r r', set_data6 solve o c knots P v0 a0 vT aT = Ok (true, r) /\
    set_data6 solve o c' knots (moved d P) v0 a0 vT aT = Ok (true, r') /\
    forall t, position o r' t = position o r t + d /\ velocity o r' t = velocity o r t /\
              acceleration o r' t = acceleration o r t.
Proof.
  intros solve o c c' knots P v0 a0 vT aT d Hb Ho Hv. pose proof Hv as (Hlen & Hi & LP & Hsm).
  destruct (Nat.eq_dec o 5) as [->|H5]; [|destruct (Nat.eq_dec o 4) as [->|H4]; [destruct (Nat.eq_dec (length knots) 2) as [E2|N2]|]].
  2, 4: rewrite !set_data6_drops by lia; now apply C99_offset_four.
  all: refine (offset_general solve _ 2 c c' knots P [v0; a0] [vT; aT] d Hb _ Hv eq_refl eq_refl); right; lia.
Qed.

(** Constant positions, at rest at both ends: the curve does not move. *)
Theorem C99_constant : forall (solve : solver R) o c knots p,
  basic_solver solve -> (1 <= o <= 5)%nat -> valid_knots knots (repeat p (length knots)) ->
  exists r, set_data6 solve o c knots (repeat p (length knots)) 0 0 0 0 = Ok (true, r) /\
    forall t, position o r t = p /\ velocity o r t = 0 /\ acceleration o r t = 0.
Proof.
  intros solve o c knots p Hb Ho Hv. pose proof Hv as (Hlen & Hi & LP & Hsm).
  set (z := repeat 0 (length knots)).
  assert (Hz : valid_knots knots z) by (repeat split; auto; apply repeat_length).
  assert (Lz : length z = length knots) by apply repeat_length.
  assert (Em : forall q, moved q z = repeat q (length knots)).
  { intros q. unfold z, moved. clear. induction (length knots) as [|k IH]; cbn; [reflexivity|]. rewrite IH. f_equal. ring. }
  assert (E0 : exists r, set_data6 solve o c knots z 0 0 0 0 = Ok (true, r) /\
    forall t, position o r t = 0 /\ velocity o r t = 0 /\ acceleration o r t = 0).
  { destruct (Nat.le_gt_cases o 2) as [H2|H2].
    - rewrite set_data6_drops, set_data4_drops by (auto; lia).
      destruct (C99_offset_two o c (reset c) knots z 0 Ho Hz) as (r & r' & E & E' & H).
      eexists. split; [now apply set_data2_stores|]. intros t. pose proof (diffs_length knots) as LD.
      destruct (any_time knots t Hlen Hi Hsm) as (i & Hii & A).
      destruct (A o _ Ho (lines_segments o knots z ltac:(lia))) as (-> & -> & ->).
      unfold lines. rewrite !nth_map_seq by lia. set (u := restrict _ _).
      assert (El : line o knots z i = constant_seg o 0).
      { unfold line, z. rewrite !nth_repeat. unfold Rdiv. rewrite Rminus_0_r, Rmult_0_l. unfold constant_seg. now orders o. }
      rewrite El. now apply constant_polys.
    - assert (Hex : forall k va, suits o k knots -> length va = k -> va = repeat 0 k ->
        exists r, fit solve o c knots z va va = Ok (true, r) /\
          forall t, position o r t = 0 /\ velocity o r t = 0 /\ acceleration o r t = 0).
      { intros k va Hs Lv Ev. destruct (offset_general solve o k c c knots z va va 1 Hb Hs Hz Lv Lv) as (r & r' & E & E' & H).
        exists r. split; [exact E|]. intros t. destruct (H t) as (X1 & X2 & X3).
        rewrite (Em 1), Ev, (constant_general solve o k knots 1 Hb Hs Hlen Hi Hsm ltac:(lra)) in E'.
        pose proof (f_equal (fun e => match e with Ok (_, q) => q | _ => r' end) E') as X. cbn beta iota in X.
        destruct (constant_value o 1 knots t ltac:(lia) Hlen Hi Hsm) as (Y1 & Y2 & Y3). rewrite X in Y1, Y2, Y3.
        repeat split; lra. }
      destruct (Nat.eq_dec o 5) as [->|H5]; [|destruct (Nat.eq_dec o 4) as [->|H4]; [destruct (Nat.eq_dec (length knots) 2) as [E2|N2]|]].
      2, 4: rewrite set_data6_drops by lia; apply (Hex 1%nat [0]); [left; lia|reflexivity|reflexivity].
      all: apply (Hex 2%nat [0; 0]); [right; lia|reflexivity|reflexivity]. }
  destruct E0 as (r0 & E0 & H0).
  destruct (C99_offset solve o c c knots z 0 0 0 0 p Hb Ho Hz) as (r & r' & E & E' & H).
  rewrite Em in E'. exists r'. split; [exact E'|]. intros t. rewrite E in E0.
  assert (X : r = r0) by congruence. subst r0. destruct (H0 t) as (X1 & X2 & X3). destruct (H t) as (-> & -> & ->).
  rewrite X1, X2, X3. repeat split; ring.
Qed.

(** ** The scalar curve *)

Theorem C99_scalar_offset : forall (solve : solver R) o sc sc1 times values v0 a0 vT aT d,
  basic_solver solve -> (1 <= o <= 5)%nat -> valid_knots times values ->
  exists r r', sc_fit_boundary solve o sc times values v0 a0 vT aT = Ok r /\
    sc_fit_boundary solve o sc1 times (moved d values) v0 a0 vT aT = Ok r' /\
    sc_get_min_time r' = sc_get_min_time r /\ sc_get_max_time r' = sc_get_max_time r /\
    forall t, (exists p, sc_evaluate o r t = Ok (true, p) /\ sc_evaluate o r' t = Ok (true, p + d)) /\
      forall old n, sc_evaluate_derivative o r' old t n = sc_evaluate_derivative o r old t n.
Proof.
  intros solve o sc sc1 times values v0 a0 vT aT d Hb Ho Hv. pose proof Hv as (Hlen & Hi & LP & Hsm).
  assert (Hv' : valid_knots times (moved d values)) by (repeat split; auto; unfold moved; now rewrite map_length).
  destruct (C99_offset solve o (sc_container sc) (sc_container sc1) times values v0 a0 vT aT d Hb Ho Hv) as (r & r' & E & E' & H).
  pose proof (C31_passes_through solve o sc times values v0 a0 vT aT (proj1 Hb) Ho Hv) as (q & Eq & _ & M & _ & T & _).
  pose proof (C31_passes_through solve o sc1 times (moved d values) v0 a0 vT aT (proj1 Hb) Ho Hv') as (q' & Eq' & _ & M' & _ & T' & _).
  pose proof (fit_container solve o sc times values v0 a0 vT aT true r (valid_nonempty _ _ Hv) E) as F. rewrite F in Eq.
  pose proof (fit_container solve o sc1 times (moved d values) v0 a0 vT aT true r' (valid_nonempty _ _ Hv) E') as F'. rewrite F' in Eq'.
  assert (X : q = mkScalar r (nth 0 times 0)) by congruence. assert (X' : q' = mkScalar r' (nth 0 times 0)) by congruence.
  subst q q'. do 2 eexists. split; [exact F|]. split; [exact F'|]. split; [reflexivity|]. split; [now rewrite M, M'|].
  intros t. destruct (H (t - nth 0 times 0)) as (H1 & H2 & H3). unfold position, velocity, acceleration in H1, H2, H3.
  destruct (C52_six_arguments solve o (sc_container sc) times values v0 a0 vT aT (proj1 Hb) Ho Hv)
    as (e & Ee & _ & _ & _ & _ & _ & _ & _ & _ & W & _).
  destruct (C52_six_arguments solve o (sc_container sc1) times (moved d values) v0 a0 vT aT (proj1 Hb) Ho Hv')
    as (e' & Ee' & _ & _ & _ & _ & _ & _ & _ & _ & W' & _).
  assert (X : e = r) by congruence. assert (X' : e' = r') by congruence. subst e e'. clear Ee Ee'.
  destruct (W (t - nth 0 times 0)) as (p & v & a & W1 & W2 & W3).
  destruct (W' (t - nth 0 times 0)) as (p' & v' & a' & W1' & W2' & W3').
  rewrite W1, W1' in H1. rewrite W2, W2' in H2. rewrite W3, W3' in H3. cbn [value] in H1, H2, H3. split.
  - exists p. unfold sc_evaluate. cbn [sc_container sc_min]. numR. rewrite W1, W1', H1. split; reflexivity.
  - intros old n. unfold sc_evaluate_derivative. cbn [sc_container sc_min]. numR. now rewrite W2, W2', W3, W3', H2, H3.
Qed.

(** Moving all times moves the curve, whatever the solver does, and also if the data
    are rejected. *)

Lemma moved_vec s l i : vec_at (moved s l) i = match vec_at l i with Ok x => Ok (x + s) | e => e end.
Proof.
  unfold vec_at, moved. rewrite nth_error_map. destruct (nth_error l i); reflexivity.
Qed.

Lemma durations_moved s knots : forall n id acc, durations_loop (moved s knots) n id acc = durations_loop knots n id acc.
Proof.
  induction n as [|n IH]; intros id acc; cbn [durations_loop]; [reflexivity|].
  rewrite !moved_vec. destruct (vec_at knots (id + 1)) as [y| | |]; cbn [bind]; try reflexivity.
  destruct (vec_at knots id) as [x| | |]; cbn [bind]; try reflexivity.
  replace (@nsub R _ (y + s) (x + s)) with (@nsub R _ y x) by (numR; ring).
  now rewrite IH.
Qed.

Lemma linear_moved s o knots P : forall n id c, linear_loop o (moved s knots) P n id c = linear_loop o knots P n id c.
Proof.
  induction n as [|n IH]; intros id c; cbn [linear_loop]; [reflexivity|].
  rewrite !moved_vec. destruct (vec_at knots (id + 1)) as [y| | |]; cbn [bind]; try reflexivity.
  destruct (vec_at knots id) as [x| | |]; cbn [bind]; try reflexivity.
  replace (@nsub R _ (y + s) (x + s)) with (@nsub R _ y x) by (numR; ring).
  destruct (vec_at P id); cbn [bind]; try reflexivity. destruct (vec_at P (id + 1)); cbn [bind]; try reflexivity.
  now rewrite IH.
Qed.

Lemma set_data6_moved (solve : solver R) o c knots P v0 a0 vT aT s :
  set_data6 solve o c (moved s knots) P v0 a0 vT aT = set_data6 solve o c knots P v0 a0 vT aT.
Proof.
  unfold set_data6, set_data4, set_data2, solve_and_store.
  assert (L : length (moved s knots) = length knots) by apply map_length.
  rewrite L, durations_moved, linear_moved. reflexivity.
Qed.

Theorem C99_time_shift : forall (solve : solver R) o sc times values v0 a0 vT aT s,
  match sc_fit_boundary solve o sc times values v0 a0 vT aT,
        sc_fit_boundary solve o sc (moved s times) values v0 a0 vT aT with
  | Ok r, Ok r' =>
      sc_get_min_time r' = sc_get_min_time r + s /\ sc_get_max_time r' = sc_get_max_time r + s /\
      forall t, sc_evaluate o r' (t + s) = sc_evaluate o r t /\
        forall old n, sc_evaluate_derivative o r' old (t + s) n = sc_evaluate_derivative o r old t n
  | Ok _, _ | _, Ok _ => False
  | e, e' => e = e'
  end.
Proof.
  intros solve o sc times values v0 a0 vT aT s. unfold sc_fit_boundary. rewrite set_data6_moved.
  destruct (set_data6 solve o (sc_container sc) times values v0 a0 vT aT) as [[b r]| | |]; cbn [bind]; try reflexivity.
  destruct times as [|t0 times]; cbn [moved map vec_front bind snd]; [reflexivity|].
  unfold sc_get_min_time, sc_get_max_time, sc_evaluate, sc_evaluate_derivative. cbn [sc_container sc_min]. numR.
  split; [ring|]. split; [ring|]. intros t. replace (t + s - (t0 + s)) with (t - t0) by ring. auto.
Qed.

(** ** Stretching time, order 3 *)

Lemma any_time_in knots t i : (2 <= length knots)%nat -> increasing knots -> (Z.of_nat (length knots) < 2 ^ 29)%Z ->
  (i < length (diffs knots))%nat -> (i = 0%nat \/ nth i knots 0 - nth 0 knots 0 <= t) ->
  (t < nth (i + 1) knots 0 - nth 0 knots 0 \/ (i + 1 = length (diffs knots))%nat) ->
  forall o segs, (1 <= o <= 5)%nat -> segments o (length (diffs knots)) segs ->
    let u := restrict (t - (nth i knots 0 - nth 0 knots 0)) (nth i (diffs knots) 0) in
    position o (holding (splines_of segs (diffs knots))) t = poly o (nth i segs []) u /\
    velocity o (holding (splines_of segs (diffs knots))) t = dpoly o (nth i segs []) u /\
    acceleration o (holding (splines_of segs (diffs knots))) t = ddpoly o (nth i segs []) u.
Proof.
  intros Hlen Hi Hsm A B C o segs Ho Hs u. pose proof (diffs_length knots) as LD. set (D := diffs knots) in *.
  assert (Hch : in_charge (splines_of segs D) i t).
  { split; [now rewrite traj_length|]. rewrite traj_length. unfold D. rewrite !start_knots by lia. auto. }
  assert (HD : positive D) by now apply diffs_positive.
  pose proof (traj_positive o D segs Ho ltac:(lia) HD) as Hp.
  pose proof (traj_countable D segs ltac:(lia)) as Hc.
  pose proof (fun f => get_at_charge f (holding (splines_of segs D)) t i _ Hp Hc Hch (traj_nth o D segs i A)) as G.
  cbn [c_splines holding] in G.
  assert (Lk : length (nth i segs []) = (o + 1)%nat) by (apply (seg_length o D segs); auto; lia).
  unfold position, velocity, acceleration, get_position_at_time, get_velocity_at_time, get_acceleration_at_time.
  rewrite !G. rewrite position_poly, velocity_poly, acceleration_poly by auto.
  cbn [s_duration s_coefs spline_of value]. unfold D. rewrite start_knots by lia. auto.
Qed.

Lemma charge_exists knots t : (2 <= length knots)%nat ->
  exists i, (i < length (diffs knots))%nat /\ (i = 0%nat \/ nth i knots 0 - nth 0 knots 0 <= t) /\
    (t < nth (i + 1) knots 0 - nth 0 knots 0 \/ (i + 1 = length (diffs knots))%nat).
Proof.
  intros Hlen. pose proof (diffs_length knots) as LD.
  destruct (in_charge_exists (splines_of [] (diffs knots)) t) as (i & A & B & C).
  { intros E. pose proof (traj_length (diffs knots) []) as L. rewrite E in L. cbn in L. lia. }
  rewrite traj_length in *. rewrite !start_knots in * by lia. exists i. auto.
Qed.

Lemma restrict_stretch a x d : 0 < a -> restrict (a * x) (a * d) = a * restrict x d.
Proof.
  intros Ha. unfold restrict, Rmax, Rmin. repeat destruct (Rle_dec _ _); nra.
Qed.

Definition stretched_seg (a : R) (cs : list R) : list R :=
  match cs with [c3; c2; c1; c0] => [c3 / a ^ 3; c2 / a ^ 2; c1 / a; c0] | _ => cs end.

Lemma stretched_polys a cs u : 0 < a -> length cs = 4%nat ->
  length (stretched_seg a cs) = 4%nat /\
  poly 3 (stretched_seg a cs) (a * u) = poly 3 cs u /\
  dpoly 3 (stretched_seg a cs) (a * u) = dpoly 3 cs u / a /\
  ddpoly 3 (stretched_seg a cs) (a * u) = ddpoly 3 cs u / a ^ 2.
Proof.
  intros Ha L. destruct cs as [|c3 [|c2 [|c1 [|c0 [|? ?]]]]]; try discriminate L.
  cbn [stretched_seg]. unfold poly, dpoly, ddpoly; simpl. repeat split; try reflexivity; field; lra.
Qed.

Theorem C99_time_stretch : forall (solve : solver R) c c' knots P v0 vT a,
  exact_solver solve -> valid_knots knots P -> 0 < a ->
  exists r r', set_data4 solve 3 c knots P v0 vT = Ok (true, r) /\
    set_data4 solve 3 c' (stretched a knots) P (v0 / a) (vT / a) = Ok (true, r') /\
    forall t, position 3 r' (a * t) = position 3 r t /\ velocity 3 r' (a * t) = velocity 3 r t / a /\
              acceleration 3 r' (a * t) = acceleration 3 r t / a ^ 2.
Proof.
  intros solve c c' knots P v0 vT a Hs Hv Ha. pose proof Hv as (Hlen & Hi & LP & Hsm).
  assert (Lk : length (stretched a knots) = length knots) by apply map_length.
  assert (Hi' : increasing (stretched a knots)).
  { intros i Hii. rewrite Lk in Hii. rewrite !stretched_nth. pose proof (Hi i Hii). nra. }
  assert (Hv' : valid_knots (stretched a knots) P) by (repeat split; auto; lia).
  destruct (set_data4_stores solve 3 c knots P v0 vT Hs ltac:(lia) Hv) as (s & Sg & G & E).
  destruct (set_data4_stores solve 3 c' (stretched a knots) P (v0 / a) (vT / a) Hs ltac:(lia) Hv') as (s' & Sg' & G' & E').
  pose proof (diffs_length knots) as LD. pose proof (diffs_length (stretched a knots)) as LD'. rewrite Lk, <- LD in LD'.
  assert (ED : forall i, (i < length (diffs knots))%nat -> nth i (diffs (stretched a knots)) 0 = a * nth i (diffs knots) 0).
  { intros i Hii. rewrite !diffs_nth by lia. rewrite !stretched_nth. ring. }
  set (n := length (diffs knots)) in *.
  assert (Ls : forall i, (i < n)%nat -> length (nth i s []) = 4%nat) by (intros; eapply (seg_len 3); eauto).
  assert (X : s' = map (fun i => stretched_seg a (nth i s [])) (seq 0 n)).
  { destruct G as ((P1 & V1 & _) & (P2 & V2 & _) & J).
    pose proof (stretched_polys a (nth 0 s []) 0 Ha (Ls 0%nat ltac:(lia))) as (_ & Z1 & Z2 & _). rewrite Rmult_0_r in Z1, Z2.
    pose proof (stretched_polys a (nth (n - 1) s []) (nth (n - 1) (diffs knots) 0) Ha (Ls (n - 1)%nat ltac:(lia))) as (_ & Z3 & Z4 & _).
    rewrite LD' in *.
    destruct (good_cubic_intro (diffs (stretched a knots)) P (v0 / a) (vT / a) (fun i => stretched_seg a (nth i s [])) n) as [G1 G2];
      [exact LD'|lia| | | | | | |].
    - intros i Hii. apply (stretched_polys a (nth i s []) 0 Ha (Ls i Hii)).
    - now rewrite Z1.
    - now rewrite Z2, V1.
    - now rewrite ED, Z3 by lia.
    - now rewrite ED, Z4, V2 by lia.
    - intros i Hii. destruct (J i Hii) as (J1 & J2 & J3 & J4). rewrite ED by lia.
      destruct (stretched_polys a (nth i s []) (nth i (diffs knots) 0) Ha (Ls i ltac:(lia))) as (_ & -> & -> & ->).
      pose proof (stretched_polys a (nth (i + 1) s []) 0 Ha (Ls (i + 1)%nat ltac:(lia))) as (_ & Y1 & Y2 & Y3).
      rewrite Rmult_0_r in Y1, Y2, Y3. rewrite Y1, Y2, Y3, J1, J2, J3, J4. auto.
    - assert (HD : positive (diffs (stretched a knots))) by now apply diffs_positive.
      apply (good_cubic_unique (diffs (stretched a knots)) P (v0 / a) (vT / a)); rewrite ?LD'; auto. lia. }
  do 2 eexists. split; [exact E|]. split; [exact E'|]. intros t.
  destruct (charge_exists knots t Hlen) as (i & Hii & B & C). fold n in Hii, C.
  destruct (any_time_in knots t i Hlen Hi Hsm Hii B C 3%nat s ltac:(lia) Sg) as (-> & -> & ->).
  destruct (any_time_in (stretched a knots) (a * t) i ltac:(lia) Hi' ltac:(lia) ltac:(lia)) with (o := 3%nat) (segs := s') as (-> & -> & ->).
  { rewrite !stretched_nth. destruct B as [B|B]; [now left|right; nra]. }
  { rewrite !stretched_nth, LD'. destruct C as [C|C]; [left; nra|now right]. }
  { lia. } { exact Sg'. }
  rewrite ED by exact Hii. rewrite !stretched_nth.
  replace (a * t - (a * nth i knots 0 - a * nth 0 knots 0)) with (a * (t - (nth i knots 0 - nth 0 knots 0))) by ring.
  rewrite restrict_stretch by exact Ha. rewrite X, nth_map_seq by exact Hii.
  apply (stretched_polys a (nth i s []) _ Ha (Ls i Hii)).
Qed.

(** ** An exact solver alone is not enough *)

(** If the solver may choose other columns for other right hand sides, moving the
    positions can change the shape of the curve. *)
Theorem C99_offset_exact_refuted :
  exists (solve : solver R) knots P d r r' t, exact_solver solve /\ valid_knots knots P /\
    set_data6 solve 5 c_new knots P 0 0 0 0 = Ok (true, r) /\
    set_data6 solve 5 c_new knots (moved d P) 0 0 0 0 = Ok (true, r') /\
    position 5 r' t <> position 5 r t + d.
Proof.
  set (knots := [0; 1; 2]). set (P := [0; 0; 0]).
  assert (Hi : increasing knots) by (intros [|[|i]] Hi; cbn in *; try lia; lra).
  assert (Hv : valid_knots knots P) by (repeat split; auto; cbn; lia).
  assert (Hv' : valid_knots knots (moved 1 P)) by (repeat split; auto; cbn; lia).
  assert (ED : diffs knots = [1; 1]) by (unfold diffs, knots; cbn; repeat (apply f_equal2; [ring|]); reflexivity).
  set (V i := if (i =? 1)%nat then 1 else 0 : R).
  set (f i := hermite5 (nth i (diffs knots) 0) (nth i (moved 1 P) 0) (V i) 0 (nth (i + 1) (moved 1 P) 0) (V (i + 1)%nat) 0).
  assert (HD : positive (diffs knots)) by now apply diffs_positive.
  assert (LD : length (diffs knots) = 2%nat) by now rewrite ED.
  destruct (good_of_values 5 2 (diffs knots) (moved 1 P) 0 0 0 0 f V (fun _ => 0)) as [Sg G]; try reflexivity; [lia| |].
  { intros i Hii. exact (quintic_ok (nth i (diffs knots) 0) (nth i (moved 1 P) 0) (V i) 0
      (nth (i + 1) (moved 1 P) 0) (V (i + 1)%nat) 0 (HD i ltac:(lia))). }
  set (segs := map f (seq 0 2)) in *.
  destruct (C99_constant gauss 5 c_new knots 0 gauss_basic ltac:(lia) Hv) as (r & E & H).
  exists (preferring (concat segs)), knots, P, 1, r, (holding (splines_of segs (diffs knots))), (1 / 2).
  split; [apply preferring_exact|]. split; [exact Hv|]. split; [|split].
  - pose proof (fit_stores (preferring (concat segs)) 5 2 c_new knots P [0; 0] [0; 0] ltac:(right; auto) Hv eq_refl eq_refl) as F.
    pose proof (fit_stores gauss 5 2 c_new knots P [0; 0] [0; 0] ltac:(right; auto) Hv eq_refl eq_refl) as F'.
    cbv zeta in F, F'. rewrite LD in F, F'. cbn [fit] in F, F'.
    destruct (solve_and_store_explicit 5 2 knots P [0; 0] [0; 0] ltac:(lia) ltac:(lia) eq_refl Hi eq_refl) as (HA & Lb & Hm & _).
    set (A := sys_matrix 5 2 (diffs knots) P [0; 0] [0; 0]) in *. set (b := sys_target 5 2 (diffs knots) P [0; 0] [0; 0]) in *.
    assert (Ex : preferring (concat segs) (2 * (5 + 1))%nat A b = gauss (2 * (5 + 1))%nat A b).
    { unfold preferring. destruct (list_eq_dec Req_EM_T (mat_vec A (concat segs)) b) as [Hy|_]; [exfalso|reflexivity].
      apply (Hm segs Sg) in Hy. destruct G as ((G1 & _) & _). destruct Hy as ((Y1 & _) & _). rewrite G1 in Y1. cbn in Y1. lra. }
    rewrite Ex in F. assert (Lg : length (gauss (2 * (5 + 1))%nat A b) = (2 * (5 + 1))%nat) by apply gauss_length.
    rewrite (F Lg), <- (F' Lg). exact E.
  - apply set_data6_any; auto; rewrite LD; auto.
  - destruct (H (1 / 2)) as (-> & _). unfold position.
    destruct (half_open 5 (diffs knots) segs ltac:(lia) ltac:(lia) ltac:(rewrite LD; lia) HD) with (i := 0%nat) (t := 1 / 2) as (-> & _).
    { now rewrite LD. } { lia. } { rewrite !start_knots by (cbn; lia). cbn. lra. }
    rewrite start_knots by (cbn; lia). cbn [value]. unfold segs, f. rewrite ED. cbn.
    unfold hermite5, poly. cbn. lra.
Qed.

(** ** Examples *)

Example C99_example : basic_solver gauss /\ exact_solver gauss /\
  valid_knots [0; 1; 3] [2; 0; 5] /\ valid_knots [0; 1; 3] [2; 3; 5] /\ valid_knots [0; 1; 3] (repeat 4 (length [0; 1; 3])).
Proof.
  split; [exact gauss_basic|]. split; [exact gauss_exact|]. split; [exact valid_example|].
  destruct valid_example as (A & B & _ & D). split; repeat split; auto.
Qed.
