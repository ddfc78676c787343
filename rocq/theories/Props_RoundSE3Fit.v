(** * C114: rounding errors of fitting a cubic Hermite SE3 curve, and of its positions *)

From Coq Require Import List Bool Arith NArith ZArith Reals Lra Lia Sorting.Sorted.
From Flocq Require Import Core IEEE754.BinarySingleNaN.
From Verif Require Import Base TimeOrder TimeB64 TimeInst KeyGen Manager ManagerSpec ManagerProofs ManagerProofs2 ManagerProofs3 ManagerMap
  Num NumB64 Quat HermiteE3 HermiteSpec HermiteE3Proofs HermiteB64 HermiteErr Sampling SamplingProofs HermiteSE3 HermiteSE3Spec HermiteSE3Proofs
  HermiteSE3Motion Props_Binary64 Props_Rounding Props_RoundFit Props_Speed.
Import ListNotations.
Local Open Scope R_scope.

(** ** The knots of a fit *)

Lemma nth_error_same {A} : forall l l' : list A, (forall i, nth_error l i = nth_error l' i) -> l = l'.
Proof.
  induction l as [|x l IH]; intros [|y l'] H; auto; try (specialize (H 0%nat); discriminate).
  f_equal; [specialize (H 0%nat); now injection H|]. apply IH. intros i. apply (H (S i)).
Qed.

Lemma fit_coefficients_size {T V D} (slope : T -> T -> V -> V -> D) d0 d1 : forall tvs prev,
  length (fit_coefficients slope d0 d1 prev tvs) = length tvs.
Proof. induction tvs as [|[t v] r IH]; intros prev; simpl; auto. Qed.

(** The positions and linear velocities stored by a fit are those of the E3 fit of the positions. *)
Lemma fit_translations {S0} {NS : Num S0} {TS : TimeOps S0} (K : kindr S0) ts (vs : list (pose S0)) d0 d1 : length ts = length vs ->
  map e3_knot (fit_coefficients (se3_slope K) d0 d1 None (combine ts vs)) =
  map (fit_knot ts (map p_pos vs) (t_lin d0) (t_lin d1)) (seq 0 (length ts)).
Proof.
  intros Hl. apply nth_error_same. intros i. rewrite !nth_error_map.
  destruct (le_lt_dec (length ts) i) as [Li|Li].
  { rewrite (proj2 (nth_error_None _ i)) by (rewrite fit_coefficients_size, combine_length; lia).
    now rewrite (proj2 (nth_error_None (seq 0 (length ts)) i)) by (rewrite seq_length; lia). }
  rewrite (nth_error_nth' (seq 0 (length ts)) 0%nat) by (now rewrite seq_length). rewrite seq_nth by exact Li. cbn [plus option_map].
  assert (G : forall j, (j < length ts)%nat -> exists t v, nth_error ts j = Some t /\ nth_error vs j = Some v /\
    nth_error (combine ts vs) j = Some (t, v) /\ nth j ts tzero = t /\ nth j (map p_pos vs) vzero = p_pos v).
  { intros j Lj. destruct (nth_error ts j) as [t|] eqn:Et; [|apply nth_error_None in Et; lia].
    destruct (nth_error vs j) as [v|] eqn:Ev; [|apply nth_error_None in Ev; lia].
    exists t, v. split; [reflexivity|]. split; [reflexivity|]. split; [now apply combine_nth_error|]. split.
    - now apply nth_error_nth.
    - apply nth_error_nth. now rewrite nth_error_map, Ev. }
  destruct (G i Li) as (t & v & Et & Ev & Ec & Nt & Np).
  rewrite (fit_nth _ _ _ _ None i t v Ec). cbn [option_map]. unfold e3_knot, fit_knot. cbn [fst snd]. rewrite Np. do 2 f_equal.
  destruct i as [|j]; [reflexivity|]. unfold fit_velocity.
  destruct (G j ltac:(lia)) as (tp & vp & _ & _ & Ecp & Ntp & Npp). rewrite Ecp, Ntp, Npp.
  destruct (Nat.eqb_spec (S (S j)) (length ts)) as [El|El].
  - now rewrite (proj2 (nth_error_None (combine ts vs) (S (S j)))) by (rewrite combine_length; lia).
  - destruct (G (S (S j)) ltac:(lia)) as (tn & vn & _ & _ & Ecn & Ntn & Npn). now rewrite Ecn, Ntn, Npn.
Qed.

Lemma combine_map_snd {A B C} (f : B -> C) : forall (l : list A) (l' : list B),
  map (fun x => (fst x, f (snd x))) (combine l l') = combine l (map f l').
Proof. induction l as [|x l IH]; intros [|y l']; simpl; auto. now rewrite IH. Qed.

(** Fitting with double times, whatever the exponential map. *)
Lemma se3_fit_b64 (K : kindr b64) g (c : se3_curve b64) (ts : list b64) vs d0 d1 out :
  length ts = length vs -> climbing ts -> (g + N.of_nat (length ts) < key_mod)%N ->
  exists c' ks, se3_fit_with_derivatives K g c ts vs d0 d1 out = Ok ((g + N.of_nat (length ts))%N, c', out ++ ks) /\
    consistent (translation c') /\
    contents (translation c') = combine ts (map (fit_knot ts (map p_pos vs) (t_lin d0) (t_lin d1)) (seq 0 (length ts))).
Proof.
  intros Hl Hf Hg. rewrite <- (fit_translations K ts vs d0 d1 Hl), <- combine_map_snd.
  unfold se3_fit_with_derivatives, hermite_fit_with_derivatives. rewrite Hl, Nat.eqb_refl, <- Hl. cbn [negb].
  set (cs := fit_coefficients (se3_slope K) d0 d1 None (combine ts vs)).
  assert (Lc : length cs = length ts) by (unfold cs; rewrite fit_coefficients_size, combine_length; lia).
  clearbody cs. clear Hl vs. destruct (climbing_lift ts Hf) as [ts' <-].
  pose (m := Mgr [] [] (fresh (h_mgr c)) : mgr b64_time (pose b64 * twist b64)).
  assert (Em : clear (h_mgr c) = map_mgr raw m) by reflexivity.
  assert (Sm : sane g m) by (split; [constructor; constructor|constructor]).
  rewrite map_length in *.
  destruct (insert_coefficients_end ts' cs g m out Sm) as (m' & ks & E & Sm' & Cm' & Lk); auto.
  { simpl. now apply climbing_increasing. }
  exists (Hermite (map_mgr raw m') (h_pol c)), ks. cbv zeta. rewrite Em.
  rewrite (map_insert_coefficients raw raw_lt raw_num), E. cbn [map_ok bind].
  split; [reflexivity|]. split.
  - unfold translation. cbn [h_mgr]. apply HermiteSE3Proofs.map_consistent. apply (ManagerMap.map_consistent raw raw_lt). apply Sm'.
  - rewrite translation_contents. cbn [h_mgr]. f_equal. rewrite ManagerMap.map_contents, Cm'. simpl. clear. revert cs.
    induction ts' as [|t ts' IH]; intros [|c cs]; simpl; auto. now rewrite IH.
Qed.

Lemma se3_fit_R (K : kindr R) g (c : se3_curve R) (ts : list R) vs d0 d1 out :
  length ts = length vs -> increasing_times ts -> (g + N.of_nat (length ts) < key_mod)%N ->
  exists c' ks, se3_fit_with_derivatives K g c ts vs d0 d1 out = Ok ((g + N.of_nat (length ts))%N, c', out ++ ks) /\
    consistent (translation c') /\
    contents (translation c') = combine ts (map (fit_knot ts (map p_pos vs) (t_lin d0) (t_lin d1)) (seq 0 (length ts))).
Proof.
  intros Hl Hi Hg. rewrite <- (fit_translations K ts vs d0 d1 Hl), <- combine_map_snd.
  destruct (se3_fit_all K g c ts vs d0 d1 out Hl Hi Hg) as (c' & ks & E & Hc & _ & Ec & _).
  exists c', ks. split; [exact E|]. split; [now apply HermiteSE3Proofs.map_consistent|]. now rewrite translation_contents, Ec.
Qed.

(** ** Curves with the knots of a fit, in double precision and exactly *)
Lemma fitted_agree (M D : R) (ts : list b64) (ps : list (vec3 b64)) (d0 d1 : vec3 b64) (c' : e3_curve b64) (r' : e3_curve R) :
  length ts = length ps -> fair M D ts ps d0 d1 -> consistent c' -> consistent r' ->
  contents c' = combine ts (map (fit_knot ts ps d0 d1) (seq 0 (length ts))) ->
  contents r' = combine (map B2R ts) (map (fit_knot (map B2R ts) (map real_vec ps) (real_vec d0) (real_vec d1)) (seq 0 (length (map B2R ts)))) ->
  forall t : b64, is_finite t = true ->
    agrees (bpow radix2 (-43) * M) (e3_evaluate c' t) (e3_evaluate r' (B2R t)) /\
    agrees (bpow radix2 (-43) * (M / D)) (e3_evaluate_derivative c' t 1) (e3_evaluate_derivative r' (B2R t) 1) /\
    agrees (bpow radix2 (-42) * (M / (D * D))) (e3_evaluate_derivative c' t 2) (e3_evaluate_derivative r' (B2R t) 2).
Proof.
  intros Hl HF Hc' Hr' Ec Er t Ft.
  pose proof (fit_finite M D ts ps d0 d1 Hl HF c' Ec) as Hf. pose proof (fit_tame M D ts ps d0 d1 Hl HF c' Ec) as Ht.
  pose proof (fit_alike M D ts ps d0 d1 Hl HF c' Ec r' Er) as Ha. pose proof (fit_M M D ts ps d0 d1 HF) as PM.
  pose proof (fit_D M D ts ps d0 d1 HF) as PD.
  assert (Hrc : consistent (real_curve c')).
  { apply real_consistent; [|exact Hc']. intros n Hn. apply (Hf _ (n_coef n)). unfold contents.
    now apply (in_map (fun n => (n_time n, n_coef n))) in Hn. }
  assert (HE : 0 <= 9 * bpow radix2 (-53) * M) by (apply Rmult_le_pos; [|lra]; apply Rmult_le_pos; [lra|apply bpow_ge_0]).
  assert (B53 : bpow radix2 (-53) = / 9007199254740992) by (simpl; lra).
  assert (B45 : bpow radix2 (-45) = 256 * / 9007199254740992) by (simpl; lra).
  assert (B44 : bpow radix2 (-44) = 512 * / 9007199254740992) by (simpl; lra).
  assert (B43 : bpow radix2 (-43) = 1024 * / 9007199254740992) by (simpl; lra).
  assert (B42 : bpow radix2 (-42) = 2048 * / 9007199254740992) by (simpl; lra).
  pose proof (fit_long M D ts ps d0 d1 Hl HF c' Ec) as HL.
  pose proof (alike_value _ D _ _ HE PD Hrc Hr' Ha HL (B2R t)) as A0.
  pose proof (alike_velocity _ D _ _ HE PD Hrc Hr' Ha HL (B2R t)) as A1.
  pose proof (alike_acceleration _ D _ _ PD Hrc Hr' Ha HL (B2R t)) as A2.
  split; [|split].
  - eapply agrees_weaken; [eapply agrees_trans; [exact (C91_position c' _ _ t Hc' Hf Ht Ft)|exact A0]|]. rewrite B53, B45, B43. lra.
  - eapply agrees_weaken; [eapply agrees_trans; [exact (C91_velocity c' _ _ t Hc' Hf Ht Ft)|exact A1]|].
    assert (0 < M / D) by (apply Rmult_lt_0_compat; [lra|now apply Rinv_0_lt_compat]).
    replace (9 * bpow radix2 (-53) * M / D) with (9 * bpow radix2 (-53) * (M / D)) by (field; lra).
    replace (3 * M / D) with (3 * (M / D)) by (field; lra). rewrite B53, B45, B43. lra.
  - eapply agrees_weaken; [eapply agrees_trans; [exact (C91_acceleration c' _ _ t Hc' Hf Ht Ft)|exact A2]|].
    assert (0 < D * D) by (now apply Rmult_lt_0_compat).
    assert (0 < M / (D * D)) by (apply Rmult_lt_0_compat; [lra|now apply Rinv_0_lt_compat]).
    replace (9 * bpow radix2 (-53) * M / (D * D)) with (9 * bpow radix2 (-53) * (M / (D * D))) by (field; lra).
    replace (3 * M / (D * D)) with (3 * (M / (D * D))) by (field; lra). rewrite B53, B44, B42. lra.
Qed.

(** ** C114 *)

(** Fitting an SE3 curve in double precision and evaluating it gives, at every time, the positions, linear velocities and
    linear accelerations which exact arithmetic gives for the same positions and times, up to 2^-43 of their size, and
    this whatever the orientations and however the exponential map and the logarithm are rounded.  The curves may
    have had other coefficients before. *)
Theorem C114_fit_with_derivatives : forall (Kb : kindr b64) (Kr : kindr R) g (c : se3_curve b64) (r : se3_curve R) (M D : R)
    (ts : list b64) (vs : list (pose b64)) (d0 d1 : twist b64) (rs : list (pose R)) (e0 e1 : twist R) out,
  length ts = length vs -> (g + N.of_nat (length ts) < key_mod)%N ->
  map p_pos rs = map (fun v => real_vec (p_pos v)) vs -> t_lin e0 = real_vec (t_lin d0) -> t_lin e1 = real_vec (t_lin d1) ->
  fair M D ts (map p_pos vs) (t_lin d0) (t_lin d1) ->
  exists g' c' r' ks ks',
    se3_fit_with_derivatives Kb g c ts vs d0 d1 out = Ok (g', c', ks) /\
    se3_fit_with_derivatives Kr g r (map B2R ts) rs e0 e1 out = Ok (g', r', ks') /\
    forall t : b64, is_finite t = true ->
      agrees (bpow radix2 (-43) * M) (on_value p_pos (se3_evaluate Kb c' t)) (on_value p_pos (se3_evaluate Kr r' (B2R t))) /\
      agrees (bpow radix2 (-43) * (M / D)) (on_value t_lin (se3_evaluate_derivative Kb c' t 1))
        (on_value t_lin (se3_evaluate_derivative Kr r' (B2R t) 1)) /\
      agrees (bpow radix2 (-42) * (M / (D * D))) (se3_evaluate_acceleration c' t) (se3_evaluate_acceleration r' (B2R t)).
Proof.
  intros Kb Kr g c r M D ts vs d0 d1 rs e0 e1 out Hl Hg Ers E0 E1 HF.
  destruct (fair_climbing _ _ _ _ _ _ HF) as [Hcl Hin].
  assert (Lr : length rs = length vs) by (rewrite <- (map_length p_pos rs), Ers; apply map_length).
  destruct (se3_fit_b64 Kb g c ts vs d0 d1 out Hl Hcl Hg) as (c' & ks & E & Hc' & Ec).
  destruct (se3_fit_R Kr g r (map B2R ts) rs e0 e1 out) as (r' & ks' & E' & Hr' & Er).
  { rewrite map_length. transitivity (length vs); [exact Hl|symmetry; exact Lr]. }
  { exact Hin. }
  { now rewrite map_length. }
  rewrite map_length in E'. eexists _, c', r', _, _. split; [exact E|]. split; [exact E'|]. intros t Ft.
  rewrite E0, E1, Ers in Er. rewrite <- (map_map p_pos real_vec) in Er.
  rewrite <- !translation_evaluate, <- !translation_velocity, <- !translation_acceleration.
  apply (fitted_agree M D ts (map p_pos vs) (t_lin d0) (t_lin d1)); auto. now rewrite map_length.
Qed.

(** The same for fitCurve, whose first and last velocities are zero. *)
Corollary C114_fit : forall (Kb : kindr b64) (Kr : kindr R) g (c : se3_curve b64) (r : se3_curve R) (M D : R)
    (ts : list b64) (vs : list (pose b64)) (rs : list (pose R)) out,
  length ts = length vs -> (g + N.of_nat (length ts) < key_mod)%N ->
  map p_pos rs = map (fun v => real_vec (p_pos v)) vs ->
  bpow radix2 (-200) <= M <= bpow radix2 198 -> moderate D ->
  (forall t, In t ts -> is_finite t = true) -> (forall v, In v vs -> finite_vec (p_pos v) /\ at_most M (p_pos v)) ->
  (forall i, (S i < length ts)%nat -> D <= B2R (nth (S i) ts tzero) - B2R (nth i ts tzero) <= bpow radix2 200) ->
  exists g' c' r' ks ks',
    se3_fit Kb g c ts vs out = Ok (g', c', ks) /\
    se3_fit Kr g r (map B2R ts) rs out = Ok (g', r', ks') /\
    forall t : b64, is_finite t = true ->
      agrees (bpow radix2 (-43) * M) (on_value p_pos (se3_evaluate Kb c' t)) (on_value p_pos (se3_evaluate Kr r' (B2R t))) /\
      agrees (bpow radix2 (-43) * (M / D)) (on_value t_lin (se3_evaluate_derivative Kb c' t 1))
        (on_value t_lin (se3_evaluate_derivative Kr r' (B2R t) 1)) /\
      agrees (bpow radix2 (-42) * (M / (D * D))) (se3_evaluate_acceleration c' t) (se3_evaluate_acceleration r' (B2R t)).
Proof.
  intros Kb Kr g c r M D ts vs rs out Hl Hg Ers HM HD Ht Hp Hs.
  destruct zero_vec as (Z1 & Z2 & Z3).
  assert (PM : 0 < M) by (eapply Rlt_le_trans; [apply (bpow_gt_0 radix2 (-200))|apply HM]).
  assert (PD : 0 < D) by (now apply moderate_pos).
  unfold se3_fit. apply C114_fit_with_derivatives; auto. split; auto.
  - intros p Hin. apply in_map_iff in Hin as (v & <- & Hv). now apply Hp.
  - intros L. apply Z3. pose proof (Hs 0%nat ltac:(lia)). apply Rmult_le_pos; [lra|]. left. apply Rinv_0_lt_compat. lra.
  - intros L. apply Z3. pose proof (Hs (length ts - 2)%nat ltac:(lia)) as X.
    replace (S (length ts - 2)) with (length ts - 1)%nat in X by lia.
    apply Rmult_le_pos; [lra|]. left. apply Rinv_0_lt_compat. lra.
Qed.

(** Three poses at the times 0, 1 and 3 with derivatives for the ends; the orientations are any. *)
Example C114_example : forall (q0 q1 q2 : quat b64) (o0 o1 o2 : quat R) (w : vec3 b64),
  let ts := [dbl 0; dbl 1; dbl 3] in
  let vs := [Pose (dvec 1 2 3) q0; Pose (dvec 4 0 (-5)) q1; Pose (dvec 7 8 9) q2] in
  let rs := [Pose (real_vec (dvec 1 2 3)) o0; Pose (real_vec (dvec 4 0 (-5))) o1; Pose (real_vec (dvec 7 8 9)) o2] in
  fair 10 1 ts (map p_pos vs) (t_lin (Twist (dvec 1 (-2) 3) w)) (t_lin (Twist (dvec 0 5 (-1)) w)) /\ length ts = length vs /\
  map p_pos rs = map (fun v => real_vec (p_pos v)) vs.
Proof. intros q0 q1 q2 o0 o1 o2 w ts vs rs. split; [exact (proj1 C92_example)|split; reflexivity]. Qed.

Print Assumptions C114_fit_with_derivatives.
Print Assumptions C114_fit.
