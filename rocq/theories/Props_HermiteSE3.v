(** * C34, C35, C37 - C39, C42 - C44, C55, C56: the cubic Hermite curve in SE3, over the reals *)

From Coquelicot Require Import Coquelicot.
From Coq Require Import List Reals Lra Lia Bool Arith NArith ZArith.
From Verif Require Import Base TimeOrder TimeInst KeyGen Manager ManagerSpec ManagerProofs ManagerProofs2
  ManagerProofs3 Num Sampling SamplingSpec SamplingProofs SplineSpec SetDataTraj HermiteE3 HermiteSpec HermiteE3Proofs
  Props_HermiteE3 Quat QuatSpec QuatProofs QuatLog HermiteSE3 HermiteSE3Spec HermiteSE3Proofs HermiteSE3Curve
  HermiteSE3Motion.
Import ListNotations.
Local Open Scope R_scope.

(** Evaluation at a knot, both halves. *)
Lemma se3_knot_values K (c : se3_curve R) t k : exact_kindr K -> consistent (h_mgr c) -> unit_knots c ->
  In (t, k) (contents (h_mgr c)) ->
  exists q, se3_evaluate K c t = Ok (Some (Pose (p_pos (fst k)) q)) /\ same_rotation q (p_rot (fst k)) /\
    (t < max_time (h_mgr c) \/ size (h_mgr c) = 1%nat -> q = p_rot (fst k)) /\
    se3_evaluate_derivative K c t 1 = Ok (Some (snd k)).
Proof.
  intros HK Hc Hu Hi.
  destruct (knot_rotation K c HK Hc Hu t k Hi) as ([p Ep] & [w Ew] & Hr & Hw & Hx).
  assert (Hi' : In (t, e3_knot k) (contents (translation c))).
  { unfold translation. rewrite map_contents. apply in_map_iff. exists (t, k). auto. }
  destruct (knot_values (translation c) t _ (map_consistent e3_knot (h_mgr c) Hc) Hi') as [E1 E2].
  rewrite (translation_evaluate K) in E1. rewrite (translation_velocity K) in E2. rewrite Ep in E1. rewrite Ew in E2.
  injection E1 as E1. injection E2 as E2.
  unfold rot_at in *. unfold ang_at in Hw. rewrite Ep in *. rewrite Ew in *.
  destruct p as [pp pr], w as [wl wa], k as [[kp kr] [kl ka]]. cbn in *. subst.
  exists pr. auto.
Qed.

(** ** C34 *)

(** Fitting replaces whatever was on the curve; evaluation at the given times returns the
    given poses, the orientation up to the sign of the quaternion and exactly so except
    at the last of several points. *)
Theorem C34_se3_passes_through : forall K g (c : se3_curve R) ts vs d0 d1 out,
  exact_kindr K -> length ts = length vs -> increasing_times ts ->
  (g + N.of_nat (length ts) < 2 ^ 64)%N -> (forall v, In v vs -> unit_quat (p_rot v)) ->
  exists c' ks, se3_fit_with_derivatives K g c ts vs d0 d1 out =
      Ok ((g + N.of_nat (length ts))%N, c', out ++ ks) /\
    consistent (h_mgr c') /\ get_times (h_mgr c') = ts /\
    forall i t v, nth_error ts i = Some t -> nth_error vs i = Some v ->
      exists q, se3_evaluate K c' t = Ok (Some (Pose (p_pos v) q)) /\ same_rotation q (p_rot v) /\
        ((S i < length ts)%nat \/ length ts = 1%nat -> q = p_rot v).
Proof.
  intros K g c ts vs d0 d1 out HK Hl Hi Hg Hu.
  destruct (se3_fit_all K g c ts vs d0 d1 out Hl Hi Hg) as (c' & ks & E & Hc & _ & Hcon & Hin & _).
  pose proof (fit_unit_knots K g c ts vs d0 d1 out _ _ _ Hl Hi Hg Hu E) as Hk.
  assert (Ht : get_times (h_mgr c') = ts).
  { rewrite <- contents_times, Hcon. apply map_fst_combine. rewrite fit_coefficients_length, combine_length. lia. }
  exists c', ks. split; [exact E|]. split; [exact Hc|]. split; [exact Ht|].
  intros i t v Et Ev.
  destruct (se3_knot_values K c' t _ HK Hc Hk (Hin _ _ _ Et Ev)) as (q & Eq & Hs & Hx & _). cbn [fst] in *.
  exists q. split; [exact Eq|]. split; [exact Hs|]. intros Hd. apply Hx.
  assert (Hsz : size (h_mgr c') = length ts).
  { unfold size. rewrite <- Ht. unfold get_times. now rewrite map_length. }
  destruct Hd as [Hd|Hd]; [left|right; congruence].
  destruct (nth_error ts (S i)) as [t'|] eqn:Et'; [|apply nth_error_None in Et'; lia].
  assert (Lt : t < t').
  { specialize (Hi i Hd). unfold at_knot in Hi.
    now rewrite (nth_error_nth _ _ _ Et), (nth_error_nth _ _ _ Et') in Hi. }
  assert (In t' (get_times (h_mgr c'))) as I1 by (rewrite Ht; now apply nth_error_In in Et').
  unfold get_times in I1. apply in_map_iff in I1 as (n1 & <- & I1).
  pose proof (max_time_bound _ n1 Hc I1) as B. apply tle_R in B. lra.
Qed.

Theorem C34_se3_fit_curve : forall K g (c : se3_curve R) ts vs out,
  exact_kindr K -> length ts = length vs -> increasing_times ts ->
  (g + N.of_nat (length ts) < 2 ^ 64)%N -> (forall v, In v vs -> unit_quat (p_rot v)) ->
  exists g' c' out', se3_fit K g c ts vs out = Ok (g', c', out') /\ consistent (h_mgr c') /\
    (forall i t v, nth_error ts i = Some t -> nth_error vs i = Some v ->
       exists q, se3_evaluate K c' t = Ok (Some (Pose (p_pos v) q)) /\ same_rotation q (p_rot v)) /\
    (forall t, nth_error ts 0 = Some t \/ nth_error ts (length ts - 1) = Some t ->
       se3_evaluate_derivative K c' t 1 = Ok (Some (Twist (V3 0 0 0) (V3 0 0 0)))).
Proof.
  intros K g c ts vs out HK Hl Hi Hg Hu. unfold se3_fit.
  destruct (se3_fit_all K g c ts vs zero_twist zero_twist out Hl Hi Hg) as (c' & ks & E & Hc & _ & Hcon & Hin & _).
  pose proof (fit_unit_knots K g c ts vs _ _ out _ _ _ Hl Hi Hg Hu E) as Hk.
  do 3 eexists. split; [exact E|]. split; [exact Hc|]. split.
  - intros i t v Et Ev.
    destruct (se3_knot_values K c' t _ HK Hc Hk (Hin _ _ _ Et Ev)) as (q & Eq & Hs & _). eauto.
  - intros t Ht.
    assert (X : forall i, nth_error ts i = Some t -> (i = 0 \/ S i = length ts)%nat ->
      se3_evaluate_derivative K c' t 1 = Ok (Some (Twist (V3 0 0 0) (V3 0 0 0)))).
    { intros i Et Hd. assert (i < length ts)%nat by (apply nth_error_Some; congruence).
      destruct (nth_error vs i) as [v|] eqn:Ev; [|apply nth_error_None in Ev; lia].
      destruct (se3_knot_values K c' t _ HK Hc Hk (Hin _ _ _ Et Ev)) as (q & _ & _ & _ & Ed).
      rewrite Ed. cbn [snd]. unfold se3_knot_twist. destruct i as [|j]; [reflexivity|].
      destruct Hd as [Hd|Hd]; [discriminate|].
      destruct (nth_error ts (S (S j))) eqn:Z; [|].
      - assert (S (S j) < length ts)%nat by (apply nth_error_Some; congruence). lia.
      - destruct (nth_error ts j), (nth_error vs j); reflexivity. }
    destruct Ht as [Ht|Ht]; [apply (X _ Ht); auto|]. apply (X _ Ht). right.
    assert (length ts - 1 < length ts)%nat by (apply nth_error_Some; congruence). lia.
Qed.

(** ** C35 *)

(** Derivatives at the data points: given at the ends, and in between the linear slope and
    the constant angular velocity that turns the previous orientation into the next one. *)
Theorem C35_se3_knot_twists : forall K g (c : se3_curve R) ts vs d0 d1 out,
  exact_kindr K -> length ts = length vs -> increasing_times ts ->
  (g + N.of_nat (length ts) < 2 ^ 64)%N -> (forall v, In v vs -> unit_quat (p_rot v)) ->
  exists g' c' out', se3_fit_with_derivatives K g c ts vs d0 d1 out = Ok (g', c', out') /\
    (forall t, nth_error ts 0 = Some t -> se3_evaluate_derivative K c' t 1 = Ok (Some d0)) /\
    (forall t, (2 <= length ts)%nat -> nth_error ts (length ts - 1) = Some t ->
       se3_evaluate_derivative K c' t 1 = Ok (Some d1)) /\
    (forall i tp t tn vp vn, nth_error ts i = Some tp -> nth_error ts (S i) = Some t ->
       nth_error ts (S (S i)) = Some tn -> nth_error vs i = Some vp -> nth_error vs (S (S i)) = Some vn ->
       exists w, se3_evaluate_derivative K c' t 1 = Ok (Some w) /\
         (forall a, coord a (t_lin w) = (coord a (p_pos vn) - coord a (p_pos vp)) / (tn - tp)) /\
         same_rotation (qmul (qexp (vscale (tn - tp) (t_ang w))) (p_rot vp)) (p_rot vn)).
Proof.
  intros K g c ts vs d0 d1 out HK Hl Hi Hg Hu.
  destruct (se3_fit_all K g c ts vs d0 d1 out Hl Hi Hg) as (c' & ks & E & Hc & _ & Hcon & Hin & _).
  pose proof (fit_unit_knots K g c ts vs d0 d1 out _ _ _ Hl Hi Hg Hu E) as Hk.
  do 3 eexists. split; [exact E|].
  assert (X : forall i t, nth_error ts i = Some t ->
    se3_evaluate_derivative K c' t 1 = Ok (Some (se3_knot_twist K ts vs d0 d1 i))).
  { intros i t Et. assert (i < length ts)%nat by (apply nth_error_Some; congruence).
    destruct (nth_error vs i) as [v|] eqn:Ev; [|apply nth_error_None in Ev; lia].
    now destruct (se3_knot_values K c' t _ HK Hc Hk (Hin _ _ _ Et Ev)) as (q & _ & _ & _ & Ed). }
  split; [|split].
  - intros t Et. now rewrite (X _ _ Et).
  - intros t L Et. rewrite (X _ _ Et). unfold se3_knot_twist. destruct (length ts - 1)%nat as [|j] eqn:Ej; [lia|].
    destruct (nth_error ts (S (S j))) eqn:Z; [|].
    + assert (S (S j) < length ts)%nat by (apply nth_error_Some; congruence). lia.
    + destruct (nth_error ts j), (nth_error vs j); reflexivity.
  - intros i tp t tn vp vn E0 E1 E2 V0 V2. rewrite (X _ _ E1). eexists. split; [reflexivity|].
    unfold se3_knot_twist. rewrite E0, E2, V0, V2.
    assert (L : (S (S i) < length ts)%nat) by (apply nth_error_Some; congruence).
    pose proof (increasing_lt ts i (S (S i)) Hi ltac:(lia) L) as Lt. unfold at_knot in Lt.
    rewrite (nth_error_nth _ _ _ E0), (nth_error_nth _ _ _ E2) in Lt.
    assert (Up : unit_quat (p_rot vp)) by (apply Hu; now apply nth_error_In in V0).
    assert (Un : unit_quat (p_rot vn)) by (apply Hu; now apply nth_error_In in V2).
    split.
    + intros a. destruct vp as [[x1 x2 x3] qp], vn as [[y1 y2 y3] qn]. destruct a; cbn; numR; field; lra.
    + unfold se3_slope. cbv zeta. cbn [t_ang]. unfold box_minus.
      assert (Uq : unit_quat (qmul (p_rot vn) (qconj (p_rot vp)))) by auto using unit_mul, unit_conj.
      pose proof (proj2 HK _ Uq) as Hs.
      replace (vscale (tn - tp) (vmul (k_log K (qmul (p_rot vn) (qconj (p_rot vp)))) (#1 / (tn - tp))%num))
        with (k_log K (qmul (p_rot vn) (qconj (p_rot vp)))).
      * apply (same_rotation_mul_r (p_rot vp)) in Hs.
        now rewrite qmul_assoc, unit_conj_l, qmul_one_r in Hs.
      * destruct (k_log K _) as [l1 l2 l3]. apply vec3_ext. intros []; cbn; numR; field; lra.
Qed.

(** ** C37 *)

Lemma on_value_some {A B} (f : A -> B) o : (exists v, on_value f o = Ok (Some v)) <-> (exists v, o = Ok (Some v)).
Proof. destruct o as [[v|]| | |]; cbn; split; intros [x [=]]; eauto. Qed.
Lemma on_value_none {A B} (f : A -> B) o : on_value f o = Ok None <-> o = Ok None.
Proof. destruct o as [[v|]| | |]; cbn; split; congruence. Qed.
Lemma on_value_ub {A B} (f : A -> B) o : on_value f o = UB <-> o = UB.
Proof. destruct o as [[v|]| | |]; cbn; split; congruence. Qed.

Theorem C37_se3_domain : forall K (c : se3_curve R) t, consistent (h_mgr c) -> se3_is_empty c = false ->
  ((exists v, se3_evaluate K c t = Ok (Some v)) <-> se3_min_time c <= t <= se3_max_time c) /\
  (~ se3_min_time c <= t <= se3_max_time c -> se3_evaluate K c t = Ok None) /\
  ((exists v, se3_evaluate_derivative K c t 1 = Ok (Some v)) <-> se3_min_time c <= t <= se3_max_time c) /\
  (~ se3_min_time c <= t <= se3_max_time c -> se3_evaluate_derivative K c t 1 = Ok None).
Proof.
  intros K c t Hc Hne.
  destruct (C37_domain (translation c) t (map_consistent e3_knot _ Hc)) as (A & B & C & D).
  { unfold e3_is_empty, translation. rewrite map_get_times. exact Hne. }
  unfold e3_min_time, e3_max_time, translation in *. rewrite map_min_time, map_max_time in *.
  fold (translation c) in *. rewrite (translation_evaluate K) in *. rewrite (translation_velocity K) in *.
  rewrite on_value_some in A. rewrite on_value_some in C. rewrite on_value_none in B. rewrite on_value_none in D.
  unfold se3_min_time, se3_max_time. auto.
Qed.

(** Orders other than one are refused, the acceleration has its own function. *)
Theorem C37_se3_higher_derivatives : forall K (c : se3_curve R) t, consistent (h_mgr c) ->
  (forall n, n <> 1%N -> se3_evaluate_derivative K c t n = Ok None) /\
  ((exists v, se3_evaluate_acceleration c t = Ok (Some v)) <->
     (2 <= se3_size c)%nat /\ se3_min_time c <= t <= se3_max_time c) /\
  (~ ((2 <= se3_size c)%nat /\ se3_min_time c <= t <= se3_max_time c) -> se3_evaluate_acceleration c t = Ok None).
Proof.
  intros K c t Hc. split.
  - intros n Hn. unfold se3_evaluate_derivative. destruct (N.eqb_spec n 1); [congruence|reflexivity].
  - destruct (C37_higher_derivatives (translation c) t (map_consistent e3_knot _ Hc)) as (A & B & _).
    unfold e3_min_time, e3_max_time, e3_size, translation in *. rewrite map_min_time, map_max_time, map_size in *.
    fold (translation c) in *. rewrite translation_acceleration in *. auto.
Qed.

Theorem C37_se3_empty : forall K (c : se3_curve R) t, se3_is_empty c = true ->
  se3_min_time c = 0 /\ se3_max_time c = 0 /\
  (t <> 0 -> se3_evaluate K c t = Ok None /\ se3_evaluate_derivative K c t 1 = Ok None) /\
  se3_evaluate K c 0 = UB /\ se3_evaluate_derivative K c 0 1 = UB /\ se3_evaluate_acceleration c 0 = Ok None.
Proof.
  intros K c t He.
  destruct (C37_empty (translation c) t) as (A & B & C & D & E & F).
  { unfold e3_is_empty, translation. rewrite map_get_times. exact He. }
  unfold e3_min_time, e3_max_time, translation in *. rewrite map_min_time, map_max_time in *.
  fold (translation c) in *. rewrite !(translation_evaluate K) in *. rewrite !(translation_velocity K) in *.
  rewrite translation_acceleration in *. rewrite !on_value_none in C. rewrite !on_value_ub in D. rewrite !on_value_ub in E.
  unfold se3_min_time, se3_max_time. auto 10.
Qed.

Theorem C37_se3_empty_evaluation_refuted : forall K,
  ~ (forall (c : se3_curve R) t, consistent (h_mgr c) -> exists r, se3_evaluate K c t = Ok r).
Proof.
  intros K Hx. destruct (Hx se3_new 0 (consistent_empty)) as [r Hr].
  destruct (C37_se3_empty K se3_new 0 eq_refl) as (_ & _ & _ & E & _). congruence.
Qed.

(** ** C38 *)

(** What evaluation returns depends on the stored knots only. *)
Lemma evaluate_contents K (c c' : se3_curve R) t : contents (h_mgr c') = contents (h_mgr c) ->
  se3_evaluate K c' t = se3_evaluate K c t /\
  (forall n, se3_evaluate_derivative K c' t n = se3_evaluate_derivative K c t n) /\
  se3_evaluate_acceleration c' t = se3_evaluate_acceleration c t.
Proof.
  intros Hm.
  assert (F : Forall2 (similar (fun x : pose R * twist R => x)) (nodes (h_mgr c)) (nodes (h_mgr c'))).
  { apply similar_contents. unfold contents in Hm. rewrite Hm. rewrite map_map. reflexivity. }
  pose proof (similar_get_at _ (h_mgr c) (h_mgr c') t F) as G.
  destruct (similar_times _ (h_mgr c) (h_mgr c') F) as [E0 E1].
  unfold se3_evaluate_derivative, se3_evaluate_acceleration. unfold se3_evaluate. rewrite E0, E1.
  destruct (get_coefficients_at (h_mgr c) t) as [[a b]|], (get_coefficients_at (h_mgr c') t) as [[a' b']|];
    try contradiction.
  - destruct G as [[Ta Ca] [Tb Cb]]. cbn [fst snd] in *. rewrite Ta, Tb, Ca, Cb.
    unfold se3_first. destruct F as [|n n' l l' [_ En] _]; [repeat split; reflexivity|]. rewrite En.
    repeat split; reflexivity.
  - unfold se3_first. destruct F as [|n n' l l' [_ En] _]; [repeat split; reflexivity|]. rewrite En.
    repeat split; reflexivity.
Qed.

(** The outcome of a fit does not depend on the curve it is applied to. *)
Theorem C38_se3_fit_replaces : forall K g (c1 c2 : se3_curve R) ts vs d0 d1 out,
  length ts = length vs -> increasing_times ts -> (g + N.of_nat (length ts) < 2 ^ 64)%N ->
  exists g1 c1' o1 g2 c2' o2,
    se3_fit_with_derivatives K g c1 ts vs d0 d1 out = Ok (g1, c1', o1) /\
    se3_fit_with_derivatives K g c2 ts vs d0 d1 out = Ok (g2, c2', o2) /\
    get_times (h_mgr c1') = ts /\ contents (h_mgr c1') = contents (h_mgr c2') /\
    forall t, se3_evaluate K c1' t = se3_evaluate K c2' t /\
      (forall n, se3_evaluate_derivative K c1' t n = se3_evaluate_derivative K c2' t n) /\
      se3_evaluate_acceleration c1' t = se3_evaluate_acceleration c2' t.
Proof.
  intros K g c1 c2 ts vs d0 d1 out Hl Hi Hg.
  destruct (se3_fit_all K g c1 ts vs d0 d1 out Hl Hi Hg) as (c1' & k1 & E1 & _ & _ & X1 & _).
  destruct (se3_fit_all K g c2 ts vs d0 d1 out Hl Hi Hg) as (c2' & k2 & E2 & _ & _ & X2 & _).
  do 6 eexists. split; [exact E1|]. split; [exact E2|]. split.
  - rewrite <- contents_times, X1. apply map_fst_combine. rewrite fit_coefficients_length, combine_length. lia.
  - assert (X : contents (h_mgr c1') = contents (h_mgr c2')) by congruence. split; [exact X|].
    intros t. now apply evaluate_contents.
Qed.

(** ** C39 *)

Lemma se3_periodic_eq K g (c : se3_curve R) ts vs out d : length ts = length vs -> (2 <= length ts)%nat ->
  (N.of_nat (length ts) < 2 ^ 64)%N ->
  se3_fit_periodic K g c ts vs out =
    let w := se3_slope K (nth (length ts - 2) ts 0) (nth 1 ts 0) (nth (length ts - 2) vs d) (nth 1 vs d) in
    se3_fit_with_derivatives K g c ts vs w w out.
Proof.
  intros Hl L U. unfold se3_fit_periodic.
  assert (E2 : size_sub (N.of_nat (length ts)) 2 = N.of_nat (length ts - 2)).
  { rewrite size_sub_pos; [lia|lia|exact U]. }
  rewrite E2.
  rewrite (vec_at_nth ts (N.of_nat (length ts - 2)) 0) by lia. cbn [bind].
  rewrite (vec_at_nth ts 1 0) by (simpl; lia). cbn [bind].
  rewrite (vec_at_nth vs (N.of_nat (length ts - 2)) d) by lia. cbn [bind].
  rewrite (vec_at_nth vs 1 d) by (simpl; lia). cbn [bind].
  rewrite Nat2N.id. reflexivity.
Qed.

(** Both ends get the same derivative.  For four or more points every component of the
    velocity is opposite in sign to the slope over the seam, and every component of the
    angular velocity to that of the rotation vector from the last but one to the second
    orientation. *)
Theorem C39_se3_periodic : forall K g (c : se3_curve R) ts vs out,
  exact_kindr K -> length ts = length vs -> increasing_times ts -> (2 <= length ts)%nat ->
  (g + N.of_nat (length ts) < 2 ^ 64)%N -> (forall v, In v vs -> unit_quat (p_rot v)) ->
  exists g' c' out' d, se3_fit_periodic K g c ts vs out = Ok (g', c', out') /\ consistent (h_mgr c') /\
    se3_evaluate_derivative K c' (se3_min_time c') 1 = Ok (Some d) /\
    se3_evaluate_derivative K c' (se3_max_time c') 1 = Ok (Some d) /\
    ((4 <= length ts)%nat -> forall a,
      (let s := seam_slope ts (map (fun v => coord a (p_pos v)) vs) in
       (s = 0 -> coord a (t_lin d) = 0) /\ (0 < s -> coord a (t_lin d) < 0) /\ (s < 0 -> 0 < coord a (t_lin d))) /\
      (forall va vb, nth_error vs (length ts - 2) = Some va -> nth_error vs 1 = Some vb ->
       let s := coord a (box_minus K (p_rot vb) (p_rot va)) in
       (s = 0 -> coord a (t_ang d) = 0) /\ (0 < s -> coord a (t_ang d) < 0) /\ (s < 0 -> 0 < coord a (t_ang d)))).
Proof.
  intros K g c ts vs out HK Hl Hi L2 Hg Hu.
  destruct vs as [|v0 vs0] eqn:Ev0; [simpl in Hl; lia|]. rewrite <- Ev0 in *. clear vs0 Ev0.
  rewrite (se3_periodic_eq K g c ts vs out v0) by (auto; lia). cbv zeta.
  set (d := se3_slope K _ _ _ _).
  destruct (C35_se3_knot_twists K g c ts vs d d out HK Hl Hi Hg Hu) as (g' & c' & out' & E & D0 & D1 & _).
  destruct (se3_fit_all K g c ts vs d d out Hl Hi Hg) as (c2 & ks & E2 & Hc & _ & Hcon & _ & _).
  rewrite E in E2. injection E2 as -> <- ->.
  assert (Ht : get_times (h_mgr c') = ts).
  { rewrite <- contents_times, Hcon. apply map_fst_combine. rewrite fit_coefficients_length, combine_length. lia. }
  assert (Hne : ts <> []) by (intros ->; simpl in L2; lia).
  assert (Emin : nth_error ts 0 = Some (se3_min_time c')).
  { unfold se3_min_time, min_time. rewrite <- Ht. unfold get_times in *. destruct (nodes (h_mgr c')); [|reflexivity].
    rewrite <- Ht in Hne. simpl in Hne. congruence. }
  assert (Emax : nth_error ts (length ts - 1) = Some (se3_max_time c')).
  { unfold se3_max_time. rewrite <- al_max_spec. unfold al_max. rewrite contents_times, Ht.
    clear - Hne. destruct ts as [|t ts _] using rev_ind; [congruence|].
    rewrite app_length, nth_error_app2 by (simpl; lia). rewrite last_last. simpl.
    replace (length ts + 1 - 1 - length ts)%nat with 0%nat by lia. reflexivity. }
  do 3 eexists. exists d. split; [exact E|]. split; [exact Hc|].
  split; [now apply D0|]. split; [now apply D1|].
  intros L4 a.
  pose proof (increasing_lt ts 1 (length ts - 2) Hi ltac:(lia) ltac:(lia)) as T1.
  pose proof (increasing_lt ts 0 1 Hi ltac:(lia) ltac:(lia)) as T2.
  pose proof (increasing_lt ts (length ts - 2) (length ts - 1) Hi ltac:(lia) ltac:(lia)) as T3.
  unfold at_knot in T1, T2, T3.
  assert (Hu' : nth 1 ts 0 - nth (length ts - 2) ts 0 < 0) by lra.
  assert (Iu : / (nth 1 ts 0 - nth (length ts - 2) ts 0) < 0) by now apply Rinv_lt_0_compat.
  split.
  - assert (X : coord a (t_lin d) = (coord a (p_pos (nth 1 vs v0)) - coord a (p_pos (nth (length ts - 2) vs v0))) *
      / (nth 1 ts 0 - nth (length ts - 2) ts 0)).
    { unfold d, se3_slope. cbn [t_lin]. destruct (p_pos (nth 1 vs v0)), (p_pos (nth (length ts - 2) vs v0)).
      destruct a; cbn; numR; field; lra. }
    cbv zeta. rewrite X. unfold seam_slope, at_knot.
    assert (Y : forall i, (i < length vs)%nat ->
      nth i (map (fun v => coord a (p_pos v)) vs) 0 = coord a (p_pos (nth i vs v0))).
    { intros i Li. rewrite <- (map_nth (fun v => coord a (p_pos v))). apply nth_indep. now rewrite map_length. }
    rewrite !Y by lia.
    set (x := coord a (p_pos (nth 1 vs v0)) - coord a (p_pos (nth (length ts - 2) vs v0))).
    set (iu := / (nth 1 ts 0 - nth (length ts - 2) ts 0)) in *.
    set (w := nth 1 ts 0 - nth 0 ts 0 + (nth (length ts - 1) ts 0 - nth (length ts - 2) ts 0)).
    assert (Iw : 0 < / w) by (apply Rinv_0_lt_compat; unfold w; lra).
    unfold Rdiv. split; [|split]; intros Hs.
    + assert (x = 0) as -> by nra. ring.
    + assert (0 < x) by nra. nra.
    + assert (x < 0) by nra. nra.
  - intros va vb Ea Eb. cbv zeta.
    assert (X : coord a (t_ang d) = coord a (box_minus K (p_rot vb) (p_rot va)) *
      / (nth 1 ts 0 - nth (length ts - 2) ts 0)).
    { unfold d, se3_slope. cbn [t_ang]. rewrite (nth_error_nth _ _ _ Ea), (nth_error_nth _ _ _ Eb).
      destruct (box_minus K (p_rot vb) (p_rot va)). destruct a; cbn; numR; field; lra. }
    rewrite X. split; [|split]; intros Hs; nra.
Qed.

Theorem C39_se3_too_few_points : forall K g (c : se3_curve R) ts vs out,
  (length ts < 2)%nat -> se3_fit_periodic K g c ts vs out = UB.
Proof.
  intros K g c ts vs out L. unfold se3_fit_periodic.
  rewrite (vec_at_out ts); [reflexivity|].
  assert (X : (1 <= size_sub (N.of_nat (length ts)) 2)%N) by
    (destruct ts as [|t0 [|t1 ts]]; [discriminate|discriminate|simpl in L; lia]).
  lia.
Qed.

(** ** C42 *)

Theorem C42_orientation_is_unit : forall K (c : se3_curve R) t,
  exact_kindr K -> consistent (h_mgr c) -> unit_knots c -> se3_is_empty c = false ->
  se3_min_time c <= t <= se3_max_time c ->
  exists p, se3_evaluate K c t = Ok (Some p) /\ unit_quat (p_rot p).
Proof.
  intros K c t HK Hc Hu He Ht.
  assert (Hs : (1 <= size (h_mgr c))%nat).
  { unfold se3_is_empty, get_times in He. unfold size. destruct (nodes (h_mgr c)); simpl in *; [discriminate|lia]. }
  destruct (rot_at_unit K c HK Hc Hu t Hs Ht) as [[p Ep] U]. unfold rot_at in U. rewrite Ep in U. eauto.
Qed.

Theorem C42_knot_orientations : forall K (c : se3_curve R) t k,
  exact_kindr K -> consistent (h_mgr c) -> unit_knots c -> In (t, k) (contents (h_mgr c)) ->
  exists p, se3_evaluate K c t = Ok (Some p) /\ p_pos p = p_pos (fst k) /\ same_rotation (p_rot p) (p_rot (fst k)) /\
    (t < se3_max_time c -> p_rot p = p_rot (fst k)).
Proof.
  intros K c t k HK Hc Hu Hi. destruct (se3_knot_values K c t k HK Hc Hu Hi) as (q & E & Hs & Hx & _).
  eexists. split; [exact E|]. cbn. auto.
Qed.

(** Every rotated vector depends continuously on the time. *)
Theorem C42_continuous : forall K (c : se3_curve R) x a,
  exact_kindr K -> consistent (h_mgr c) -> unit_knots c -> (2 <= se3_size c)%nat ->
  continuous_on (fun s => coord a (rotation_matrix (rot_at K c s) x)) (se3_min_time c) (se3_max_time c).
Proof. intros K c x a HK Hc Hu Hs. now apply rot_continuous_on. Qed.

(** ** C43 *)

(** The differential equation of the quaternion, strictly between neighbouring knots. *)
Theorem C43_quaternion_derivative : forall K (c : se3_curve R) ta ka tb kb t,
  exact_kindr K -> consistent (h_mgr c) -> unit_knots c ->
  adjacent (contents (h_mgr c)) (ta, ka) (tb, kb) -> ta < t < tb ->
  quat_derivative (rot_at K c) t (qscale (qmul (qpure (ang_at K c t)) (rot_at K c t)) (/ 2)).
Proof. intros K c ta ka tb kb t HK Hc Hu Ha Ht. now apply (rot_between K c HK Hc Hu t ta ka tb kb). Qed.

(** The same on rotated vectors, at every time inside the range, knots included; and the
    angular velocity is continuous. *)
Theorem C43_rotation_derivative : forall K (c : se3_curve R) t x a,
  exact_kindr K -> consistent (h_mgr c) -> unit_knots c -> (2 <= se3_size c)%nat ->
  se3_min_time c < t < se3_max_time c ->
  derivable_pt_lim (fun s => coord a (rotation_matrix (rot_at K c s) x)) t
    (coord a (cross (ang_at K c t) (rotation_matrix (rot_at K c t) x))).
Proof. intros. now apply rot_interior_derivative. Qed.

Theorem C43_angular_velocity_continuous : forall K (c : se3_curve R) a,
  exact_kindr K -> consistent (h_mgr c) -> unit_knots c -> (2 <= se3_size c)%nat ->
  continuous_on (fun s => coord a (ang_at K c s)) (se3_min_time c) (se3_max_time c).
Proof. intros K c a HK Hc Hu Hs. now apply (rot_continuous_on K c HK Hc Hu (V3 0 0 0) a Hs). Qed.

Theorem C43_knot_twists : forall K (c : se3_curve R) t k,
  exact_kindr K -> consistent (h_mgr c) -> unit_knots c -> In (t, k) (contents (h_mgr c)) ->
  se3_evaluate_derivative K c t 1 = Ok (Some (snd k)).
Proof. intros K c t k HK Hc Hu Hi. now destruct (se3_knot_values K c t k HK Hc Hu Hi) as (q & _ & _ & _ & E). Qed.

(** ** C44 *)

(** Moving all knots moves the curve. *)
Theorem C44_curve_equivariant : forall K p tr (c c' : se3_curve R) t,
  unit_quat p -> consistent (h_mgr c) ->
  contents (h_mgr c') = map (fun tk => (fst tk, move_knot p tr (snd tk))) (contents (h_mgr c)) ->
  se3_evaluate K c' t = on_value (move_pose p tr) (se3_evaluate K c t) /\
  se3_evaluate_derivative K c' t 1 = on_value (move_twist p) (se3_evaluate_derivative K c t 1).
Proof. intros. now apply frame_evaluate. Qed.

(** Fitting moved data gives the moved curve, for every time. *)
Theorem C44_fit_equivariant : forall K p tr g (c : se3_curve R) ts vs d0 d1 out,
  equivariant_log K -> unit_quat p -> length ts = length vs -> increasing_times ts ->
  (g + N.of_nat (length ts) < 2 ^ 64)%N -> (forall v, In v vs -> unit_quat (p_rot v)) ->
  exists g1 c1 o1 g2 c2 o2,
    se3_fit_with_derivatives K g c ts vs d0 d1 out = Ok (g1, c1, o1) /\
    se3_fit_with_derivatives K g c ts (map (move_pose p tr) vs) (move_twist p d0) (move_twist p d1) out = Ok (g2, c2, o2) /\
    forall t, se3_evaluate K c2 t = on_value (move_pose p tr) (se3_evaluate K c1 t) /\
      se3_evaluate_derivative K c2 t 1 = on_value (move_twist p) (se3_evaluate_derivative K c1 t 1).
Proof.
  intros K p tr g c ts vs d0 d1 out He Hp Hl Hi Hg Hu.
  destruct (se3_fit_all K g c ts vs d0 d1 out Hl Hi Hg) as (c1 & k1 & E1 & Hc1 & _ & X1 & _).
  destruct (se3_fit_all K g c ts (map (move_pose p tr) vs) (move_twist p d0) (move_twist p d1) out)
    as (c2 & k2 & E2 & _ & _ & X2 & _); [now rewrite map_length|exact Hi|exact Hg|].
  do 6 eexists. split; [exact E1|]. split; [exact E2|]. intros t.
  apply frame_evaluate; auto. rewrite X1, X2. now apply fit_contents_move.
Qed.

(** The same for fitCurve, whose end derivatives are zero. *)
Corollary C44_fit_curve_equivariant : forall K p tr g (c : se3_curve R) ts vs out,
  equivariant_log K -> unit_quat p -> length ts = length vs -> increasing_times ts ->
  (g + N.of_nat (length ts) < 2 ^ 64)%N -> (forall v, In v vs -> unit_quat (p_rot v)) ->
  exists g1 c1 o1 g2 c2 o2,
    se3_fit K g c ts vs out = Ok (g1, c1, o1) /\
    se3_fit K g c ts (map (move_pose p tr) vs) out = Ok (g2, c2, o2) /\
    forall t, se3_evaluate K c2 t = on_value (move_pose p tr) (se3_evaluate K c1 t).
Proof.
  intros K p tr g c ts vs out He Hp Hl Hi Hg Hu.
  destruct (C44_fit_equivariant K p tr g c ts vs zero_twist zero_twist out He Hp Hl Hi Hg Hu)
    as (g1 & c1 & o1 & g2 & c2 & o2 & E1 & E2 & H).
  assert (Z : move_twist p zero_twist = zero_twist).
  { unfold move_twist, zero_twist. f_equal; destruct p; apply vec3_ext; intros []; cbn; numR; ring. }
  rewrite Z in E2. do 6 eexists. split; [exact E1|]. split; [exact E2|]. intros t. apply H.
Qed.

(** ** C55 *)

(** A motion with constant velocity and angular velocity is reproduced exactly, as long as
    it turns by less than half a turn between a data point and the next but one. *)
Theorem C55_uniform_motion : forall K x q0 v w g (c : se3_curve R) ts out,
  exact_kindr K -> principal_log K -> unit_quat q0 -> increasing_times ts -> (2 <= length ts)%nat ->
  (g + N.of_nat (length ts) < 2 ^ 64)%N ->
  (forall i j, (i < j < length ts)%nat -> (j <= i + 2)%nat -> (at_knot ts j - at_knot ts i) * vnorm w < PI) ->
  exists g' c' out',
    se3_fit_with_derivatives K g c ts (map (uniform_motion x q0 v w) ts) (Twist v w) (Twist v w) out = Ok (g', c', out') /\
    forall t, se3_min_time c' <= t <= se3_max_time c' ->
      se3_evaluate K c' t = Ok (Some (uniform_motion x q0 v w t)) /\
      se3_evaluate_derivative K c' t 1 = Ok (Some (Twist v w)).
Proof.
  intros K x q0 v w g c ts out HK HP H0 Hi L2 Hg Hturn.
  assert (Hl : length ts = length (map (uniform_motion x q0 v w) ts)) by now rewrite map_length.
  destruct (se3_fit_all K g c ts _ (Twist v w) (Twist v w) out Hl Hi Hg) as (c' & ks & E & Hc & _ & Hcon & _ & Hin).
  do 3 eexists. split; [exact E|]. intros t Ht.
  assert (Hu : unit_knots c').
  { eapply fit_unit_knots; [exact Hl|exact Hi|exact Hg| |exact E]. intros y Hy. apply in_map_iff in Hy as (s & <- & _).
    now apply turning_unit. }
  assert (Hk : forall s k, In (s, k) (contents (h_mgr c')) -> k = (uniform_motion x q0 v w s, Twist v w)).
  { intros s k Hk. destruct (Hin s k Hk) as (i & Ei & Ev & Ed). rewrite nth_error_map, Ei in Ev. injection Ev as Ev.
    destruct k as [kp kd]. cbn [fst snd] in *. subst kp. f_equal. subst kd. unfold se3_knot_twist.
    destruct i as [|j]; [reflexivity|]. rewrite !nth_error_map.
    destruct (nth_error ts j) as [tp|] eqn:Ep; [|reflexivity]. cbn [option_map].
    destruct (nth_error ts (S (S j))) as [tn|] eqn:En; [|reflexivity]. cbn [option_map].
    assert (L : (S (S j) < length ts)%nat) by (apply nth_error_Some; congruence).
    pose proof (increasing_lt ts j (S (S j)) Hi ltac:(lia) L) as Lt.
    pose proof (Hturn j (S (S j)) ltac:(lia) ltac:(lia)) as Tu. unfold at_knot in Lt, Tu.
    rewrite (nth_error_nth _ _ _ Ep), (nth_error_nth _ _ _ En) in Lt, Tu.
    unfold se3_slope, uniform_motion. cbn [p_pos p_rot]. cbv zeta. f_equal.
    - destruct x as [x1 x2 x3], v as [v1 v2 v3]. apply vec3_ext. intros []; cbn; numR; field; lra.
    - rewrite (turning_box K q0 w HP H0).
      + destruct w as [w1 w2 w3]. apply vec3_ext. intros []; cbn; numR; field; lra.
      + rewrite vnorm_scale, Rabs_pos_eq by lra. exact Tu. }
  assert (Hsz : (2 <= size (h_mgr c'))%nat).
  { rewrite contents_size, Hcon, combine_length, fit_coefficients_length, combine_length. lia. }
  destruct (find_segment (h_mgr c') t Hc Hsz Ht) as (u & ta & ka & tb & kb & z & Es & Hta & Htb).
  pose proof (consistent_incr _ _ _ _ _ _ _ Hc Es) as Hlt.
  assert (Ea : ka = (uniform_motion x q0 v w ta, Twist v w)) by (apply Hk; rewrite Es, in_app_iff; simpl; auto).
  assert (Eb : kb = (uniform_motion x q0 v w tb, Twist v w)) by (apply Hk; rewrite Es, in_app_iff; simpl; auto).
  assert (Hn : vnorm (vscale (tb - ta) w) < PI).
  { (* neighbours on the curve are neighbours in the input *)
    assert (X : ts = map fst (contents (h_mgr c'))).
    { rewrite Hcon. symmetry. apply map_fst_combine. rewrite fit_coefficients_length, combine_length. lia. }
    rewrite Es, map_app in X. cbn [map fst] in X.
    specialize (Hturn (length u) (S (length u))). rewrite X in Hturn. unfold at_knot in Hturn.
    rewrite app_nth2, app_nth2 in Hturn by (rewrite map_length; lia). rewrite map_length in Hturn.
    replace (length u - length u)%nat with 0%nat in Hturn by lia.
    replace (S (length u) - length u)%nat with 1%nat in Hturn by lia. cbn [nth] in Hturn.
    rewrite vnorm_scale, Rabs_pos_eq by lra. apply Hturn; [|lia].
    rewrite app_length, map_length. simpl. lia. }
  assert (Htt : ta <= t <= tb) by (destruct Htb; lra).
  destruct (rot_piece K c' HK Hc Hu u ta ka tb kb z t Es Htt) as ([p Ep] & [d Ed] & R1 & _ & W).
  assert (Hrot : rot_at K c' t = turning q0 w t).
  { rewrite R1 by (destruct Htb; tauto). apply uniform_rotation; subst ka kb; auto. }
  assert (Hang : ang_at K c' t = w).
  { rewrite W. apply uniform_omega with (q0 := q0); subst ka kb; auto. }
  pose proof (translation_evaluate K c' t) as P1. pose proof (translation_velocity K c' t) as P2.
  assert (Et : contents (translation c') = map (fun tk => (fst tk, e3_knot (snd tk))) u ++
    (ta, e3_knot ka) :: (tb, e3_knot kb) :: map (fun tk => (fst tk, e3_knot (snd tk))) z).
  { unfold translation. rewrite map_contents, Es, map_app. reflexivity. }
  pose proof (map_consistent e3_knot _ Hc) as Hc'. fold (translation c') in Hc'.
  rewrite (evaluate_segment _ _ _ _ _ _ _ t Hc' Et Htt), Ep in P1.
  rewrite (velocity_segment _ _ _ _ _ _ _ t Hc' Et Htt), Ed in P2.
  rewrite Ea, Eb in P1, P2. unfold e3_knot in P1, P2. cbn [fst snd uniform_motion p_pos t_lin] in P1, P2.
  destruct (uniform_position ta tb x v t Hlt) as [Q1 Q2]. rewrite Q1 in P1. rewrite Q2 in P2.
  injection P1 as P1. injection P2 as P2.
  unfold rot_at in Hrot. unfold ang_at in Hang. rewrite Ep in Hrot |- *. rewrite Ed in Hang |- *.
  destruct p as [pp pr], d as [dl da]. cbn in *. subst. split; reflexivity.
Qed.

(** ** C56 *)

(** transformCurve is documented to perform a rigid transformation on the left side of the
    curve.  It does so for no curve with a coefficient and no transformation that moves
    the point in question. *)
Theorem C56_transform_curve_refuted : forall K (c : se3_curve R) t y T,
  se3_evaluate K c t = Ok (Some y) -> move_pose (p_rot T) (p_pos T) y <> y ->
  se3_evaluate K (se3_transform_curve c T) t <> Ok (Some (move_pose (p_rot T) (p_pos T) y)).
Proof. intros K c t y T E Hn X. unfold se3_transform_curve in X. rewrite E in X. congruence. Qed.

(** ** Examples *)

(** Four poses: identity, half turn about the first axis, half turn about the second, quarter
    turn about the third. *)
Definition vs4 : list (pose R) :=
  [Pose (V3 0 0 0) (Quat 1 0 0 0); Pose (V3 0 1 0) (Quat 0 1 0 0); Pose (V3 (-2) 3 0) (Quat 0 0 1 0);
   Pose (V3 0 0 0) (Quat (3/5) 0 0 (4/5))].

Lemma vs4_unit v : In v vs4 -> unit_quat (p_rot v).
Proof. intros [<-|[<-|[<-|[<-|[]]]]]; unfold unit_quat; cbn; lra. Qed.

Lemma vs4_length : length ts4 = length vs4.
Proof. reflexivity. Qed.

Lemma fit4 : exists c : se3_curve R, consistent (h_mgr c) /\ unit_knots c /\
  se3_min_time c = 0 /\ se3_max_time c = 3 /\
  contents (h_mgr c) = combine ts4 (fit_coefficients (se3_slope std_kindr) zero_twist zero_twist None (combine ts4 vs4)).
Proof.
  destruct (se3_fit_all std_kindr 0 se3_new ts4 vs4 zero_twist zero_twist [] vs4_length ts4_increasing eq_refl)
    as (c & ks & E & Hc & _ & Hcon & _).
  exists c. split; [exact Hc|].
  split; [exact (fit_unit_knots _ 0 se3_new ts4 vs4 _ _ [] _ _ _ vs4_length ts4_increasing eq_refl vs4_unit E)|].
  split; [|split; [|exact Hcon]].
  - cbn [combine fit_coefficients vs4 ts4] in Hcon. unfold se3_min_time, min_time, contents in *.
    destruct (nodes (h_mgr c)); simpl in Hcon; [discriminate|]. now injection Hcon.
  - cbn [combine fit_coefficients vs4 ts4] in Hcon. unfold se3_max_time.
    eapply (contents_max (h_mgr c) [_; _; _]). exact Hcon.
Qed.

(** C34, C35, C38: the hypotheses hold for these data. *)
Example C34_se3_example : exists g' c' out', se3_fit std_kindr 0 se3_new ts4 vs4 [] = Ok (g', c', out') /\
  exists q, se3_evaluate std_kindr c' 1 = Ok (Some (Pose (V3 0 1 0) q)) /\ same_rotation q (Quat 0 1 0 0).
Proof.
  destruct (C34_se3_fit_curve std_kindr 0 se3_new ts4 vs4 [] std_log_exact vs4_length ts4_increasing eq_refl vs4_unit)
    as (g' & c' & o & E & _ & Hv & _).
  do 3 eexists. split; [exact E|]. now apply (Hv 1%nat 1 (Pose (V3 0 1 0) (Quat 0 1 0 0))).
Qed.

Example C34_se3_passes_example : exists r,
  se3_fit_with_derivatives std_kindr 0 se3_new ts4 vs4 zero_twist zero_twist [] = Ok r.
Proof.
  destruct (C34_se3_passes_through std_kindr 0 se3_new ts4 vs4 zero_twist zero_twist [] std_log_exact vs4_length
    ts4_increasing eq_refl vs4_unit) as (c' & ks & E & _). eauto.
Qed.

Example C35_se3_example : exists g' c' out' w,
  se3_fit_with_derivatives std_kindr 0 se3_new ts4 vs4 zero_twist zero_twist [] = Ok (g', c', out') /\
  se3_evaluate_derivative std_kindr c' 1 1 = Ok (Some w) /\ coord AX (t_lin w) = -1 /\
  same_rotation (qmul (qexp (vscale 2 (t_ang w))) (Quat 1 0 0 0)) (Quat 0 0 1 0).
Proof.
  destruct (C35_se3_knot_twists std_kindr 0 se3_new ts4 vs4 zero_twist zero_twist [] std_log_exact vs4_length
    ts4_increasing eq_refl vs4_unit) as (g' & c' & o & E & _ & _ & Hw).
  destruct (Hw 0%nat 0 1 2 (Pose (V3 0 0 0) (Quat 1 0 0 0)) (Pose (V3 (-2) 3 0) (Quat 0 0 1 0)) eq_refl eq_refl eq_refl
    eq_refl eq_refl) as (w & Ew & El & Er).
  do 4 eexists. split; [exact E|]. split; [exact Ew|]. split.
  - rewrite El. cbn. lra.
  - replace (2 - 0) with 2 in Er by ring. exact Er.
Qed.

(** C37, C42, C43, C44 (curve): a curve with unit orientations, several knots, and a time
    inside its range and between two neighbours. *)
Example C37_se3_example : exists c : se3_curve R, consistent (h_mgr c) /\ unit_knots c /\ exact_kindr std_kindr /\
  (2 <= se3_size c)%nat /\ se3_is_empty c = false /\ se3_min_time c < 1/2 < se3_max_time c /\
  (exists ka kb, adjacent (contents (h_mgr c)) (0, ka) (1, kb)) /\ 0 < 1/2 < 1 /\
  exists t k, In (t, k) (contents (h_mgr c)).
Proof.
  destruct fit4 as (c & Hc & Hu & E0 & E1 & Hcon). exists c.
  split; [exact Hc|]. split; [exact Hu|]. split; [apply std_log_exact|].
  cbn [combine fit_coefficients vs4 ts4] in Hcon.
  split; [unfold se3_size; rewrite contents_size, Hcon; simpl; lia|].
  split; [unfold se3_is_empty; now rewrite <- contents_times, Hcon|]. split; [lra|].
  split; [do 2 eexists; exists []; eexists; exact Hcon|]. split; [lra|].
  do 2 eexists. rewrite Hcon. left. reflexivity.
Qed.

Example C37_se3_empty_example : se3_is_empty (se3_new : se3_curve R) = true.
Proof. reflexivity. Qed.

Example C38_se3_example : exists c : se3_curve R, (0 < se3_size c)%nat /\ length ts4 = length vs4 /\
  increasing_times ts4 /\ (0 + N.of_nat (length ts4) < 2 ^ 64)%N.
Proof.
  destruct fit4 as (c & Hc & Hu & E0 & E1 & Hcon). exists c.
  split; [unfold se3_size; rewrite contents_size, Hcon; simpl; lia|].
  split; [reflexivity|]. split; [exact ts4_increasing|reflexivity].
Qed.

Example C39_se3_example : exists g' (c' : se3_curve R) out' d,
  se3_fit_periodic std_kindr 0 se3_new ts4 vs4 [] = Ok (g', c', out') /\
  se3_evaluate_derivative std_kindr c' (se3_min_time c') 1 = Ok (Some d) /\ coord AX (t_lin d) < 0.
Proof.
  destruct (C39_se3_periodic std_kindr 0 se3_new ts4 vs4 [] std_log_exact vs4_length ts4_increasing
    ltac:(simpl; lia) eq_refl vs4_unit) as (g' & c' & o & d & E & _ & Ed & _ & Hs).
  do 4 eexists. split; [exact E|]. split; [exact Ed|].
  destruct (Hs ltac:(simpl; lia) AX) as [Hl _]. apply Hl. unfold seam_slope, at_knot. simpl. lra.
Qed.

Example C39_se3_few_example : se3_fit_periodic std_kindr 0 se3_new [1] [Pose (V3 0 0 0) (Quat 1 0 0 0)] [] = UB.
Proof. apply C39_se3_too_few_points. simpl. lia. Qed.

Example C44_example : unit_quat (Quat (3/5) 0 (4/5) 0) /\ equivariant_log std_kindr /\
  exists c c' : se3_curve R, consistent (h_mgr c) /\ (0 < se3_size c)%nat /\
    contents (h_mgr c') = map (fun tk => (fst tk, move_knot (Quat (3/5) 0 (4/5) 0) (V3 1 2 3) (snd tk))) (contents (h_mgr c)).
Proof.
  split; [unfold unit_quat; cbn; lra|]. split; [apply std_log_equivariant|].
  destruct fit4 as (c & Hc & Hu & E0 & E1 & Hcon).
  exists c, (Hermite (mgr_map (move_knot (Quat (3/5) 0 (4/5) 0) (V3 1 2 3)) (h_mgr c)) (h_pol c)).
  split; [exact Hc|]. split; [unfold se3_size; rewrite contents_size, Hcon; simpl; lia|].
  apply map_contents.
Qed.

Example C44_fit_example : exists g1 c1 o1 g2 c2 o2,
  se3_fit std_kindr 0 se3_new ts4 vs4 [] = Ok (g1, c1, o1) /\
  se3_fit std_kindr 0 se3_new ts4 (map (move_pose (Quat (3/5) 0 (4/5) 0) (V3 1 2 3)) vs4) [] = Ok (g2, c2, o2).
Proof.
  destruct (C44_fit_curve_equivariant std_kindr (Quat (3/5) 0 (4/5) 0) (V3 1 2 3) 0 se3_new ts4 vs4 [])
    as (g1 & c1 & o1 & g2 & c2 & o2 & E1 & E2 & _).
  - apply std_log_equivariant.
  - unfold unit_quat. cbn. lra.
  - reflexivity.
  - exact ts4_increasing.
  - reflexivity.
  - exact vs4_unit.
  - do 6 eexists. split; [exact E1|exact E2].
Qed.

(** One radian per second about the first axis, sampled every second. *)
Example C55_example : exists g' c' out',
  se3_fit_with_derivatives std_kindr 0 se3_new ts4
    (map (uniform_motion (V3 1 2 3) (Quat 0 0 1 0) (V3 4 5 6) (V3 1 0 0)) ts4)
    (Twist (V3 4 5 6) (V3 1 0 0)) (Twist (V3 4 5 6) (V3 1 0 0)) [] = Ok (g', c', out').
Proof.
  destruct (C55_uniform_motion std_kindr (V3 1 2 3) (Quat 0 0 1 0) (V3 4 5 6) (V3 1 0 0) 0 se3_new ts4 [])
    as (g' & c' & o & E & _).
  - apply std_log_exact.
  - apply std_log_principal.
  - unfold unit_quat. cbn. lra.
  - exact ts4_increasing.
  - simpl. lia.
  - reflexivity.
  - assert (N1 : vnorm (V3 1 0 0) = 1).
    { unfold vnorm. cbn. replace (1 * 1 + 0 * 0 + 0 * 0) with 1 by ring. apply sqrt_1. }
    rewrite N1. pose proof PI_4. pose proof PI2_3_2 as P2. unfold PI2 in P2.
    intros i j [Hij Hj] Hd. unfold ts4 in *. cbn [length] in Hj.
    destruct i as [|[|[|[|i]]]]; destruct j as [|[|[|[|j]]]]; try lia; unfold at_knot; cbn; lra.
  - eauto.
Qed.

Example C56_example : exists (c : se3_curve R) t y T, se3_evaluate std_kindr c t = Ok (Some y) /\
  move_pose (p_rot T) (p_pos T) y <> y.
Proof.
  destruct fit4 as (c & Hc & Hu & E0 & E1 & Hcon).
  destruct (se3_knot_values std_kindr c 0 (Pose (V3 0 0 0) (Quat 1 0 0 0), zero_twist) std_log_exact Hc Hu)
    as (q & E & _).
  { rewrite Hcon. left. reflexivity. }
  exists c, 0, (Pose (V3 0 0 0) q), (Pose (V3 1 0 0) (Quat 1 0 0 0)). split; [exact E|].
  intros X. injection X as X _ _ _. cbn in X. numR. lra.
Qed.

Print Assumptions C34_se3_passes_through.
Print Assumptions C34_se3_fit_curve.
Print Assumptions C35_se3_knot_twists.
Print Assumptions C37_se3_domain.
Print Assumptions C37_se3_higher_derivatives.
Print Assumptions C37_se3_empty.
Print Assumptions C37_se3_empty_evaluation_refuted.
Print Assumptions C38_se3_fit_replaces.
Print Assumptions C39_se3_periodic.
Print Assumptions C39_se3_too_few_points.
Print Assumptions C42_orientation_is_unit.
Print Assumptions C42_knot_orientations.
Print Assumptions C42_continuous.
Print Assumptions C43_quaternion_derivative.
Print Assumptions C43_rotation_derivative.
Print Assumptions C43_angular_velocity_continuous.
Print Assumptions C43_knot_twists.
Print Assumptions C44_curve_equivariant.
Print Assumptions C44_fit_equivariant.
Print Assumptions C44_fit_curve_equivariant.
Print Assumptions C55_uniform_motion.
Print Assumptions C56_transform_curve_refuted.
