(** * C34 - C40: the cubic Hermite curve in E3, over the reals *)

From Coquelicot Require Import Coquelicot.
From Coq Require Import List Reals Lra Lia Bool Arith NArith ZArith.
From Verif Require Import Base TimeOrder TimeInst KeyGen Manager ManagerSpec ManagerProofs ManagerProofs2
  ManagerProofs3 Num Sampling SamplingSpec SamplingProofs SplineSpec SetDataTraj HermiteE3 HermiteSpec HermiteE3Proofs.
Import ListNotations.
Local Open Scope R_scope.

(** ** C34 *)

(** Fitting an empty curve gives exactly the given knots, and evaluation at the
    given times returns the given points. *)
Theorem C34_passes_through : forall debug g (c : e3_curve R) ts ps d0 d1 out,
  consistent c -> e3_size c = 0%nat -> length ts = length ps -> increasing_times ts ->
  (g + N.of_nat (length ts) < 2 ^ 64)%N ->
  exists c' ks, e3_fit_with_derivatives debug g c ts ps d0 d1 out =
      Ok ((g + N.of_nat (length ts))%N, c', out ++ ks) /\
    length ks = length ts /\ consistent c' /\ get_times c' = ts /\
    forall i t p, nth_error ts i = Some t -> nth_error ps i = Some p ->
      e3_evaluate c' t = Ok (Some p).
Proof.
  intros debug g c ts ps d0 d1 out Hc Hz Hl Hi Hg.
  destruct (e3_fit_spec debug g c ts ps d0 d1 out Hc Hz Hl Hi Hg) as (c' & ks & E & Lk & [Hs _] & Hcon).
  exists c', ks. split; [exact E|]. split; [exact Lk|]. split; [exact Hs|]. split.
  - rewrite <- contents_times, Hcon. apply map_fst_combine. now rewrite fit_knots_length.
  - intros i t p Et Ep.
    destruct (knot_values c' t (Knot p (fit_velocity ts ps d0 d1 i)) Hs) as [Ev _]; [|exact Ev].
    rewrite Hcon. now apply fit_contents_in.
Qed.

(** fitCurve is the same with zero end velocities. *)
Theorem C34_fit_curve : forall debug g (c : e3_curve R) ts ps out,
  consistent c -> e3_size c = 0%nat -> length ts = length ps -> increasing_times ts ->
  (g + N.of_nat (length ts) < 2 ^ 64)%N ->
  exists g' c' out', e3_fit debug g c ts ps out = Ok (g', c', out') /\ consistent c' /\
    (forall i t p, nth_error ts i = Some t -> nth_error ps i = Some p -> e3_evaluate c' t = Ok (Some p)) /\
    (forall t, nth_error ts 0 = Some t \/ nth_error ts (length ts - 1) = Some t ->
       e3_evaluate_derivative c' t 1 = Ok (Some (V3 0 0 0))).
Proof.
  intros debug g c ts ps out Hc Hz Hl Hi Hg. unfold e3_fit.
  destruct (e3_fit_spec debug g c ts ps vzero vzero out Hc Hz Hl Hi Hg) as (c' & ks & E & Lk & [Hs _] & Hcon).
  do 3 eexists. split; [exact E|]. split; [exact Hs|]. split.
  - intros i t p Et Ep.
    destruct (knot_values c' t (Knot p (fit_velocity ts ps vzero vzero i)) Hs) as [Ev _]; [|exact Ev].
    rewrite Hcon. now apply fit_contents_in.
  - intros t Ht.
    assert (X : forall i, nth_error ts i = Some t -> (i = 0 \/ S i = length ts)%nat ->
      e3_evaluate_derivative c' t 1 = Ok (Some (V3 0 0 0))).
    { intros i Et Hd. destruct (nth_error ps i) as [p|] eqn:Ep.
      - destruct (knot_values c' t (Knot p (fit_velocity ts ps vzero vzero i)) Hs) as [_ Ev].
        + rewrite Hcon. now apply fit_contents_in.
        + rewrite Ev. unfold fit_velocity. destruct i; [reflexivity|].
          destruct Hd as [Hd| ->]; [discriminate|]. now rewrite Nat.eqb_refl.
      - apply nth_error_None in Ep. assert (i < length ts)%nat by (apply nth_error_Some; congruence). lia. }
    destruct Ht as [Ht|Ht]; [apply (X _ Ht); auto|]. apply (X _ Ht). right.
    assert (length ts - 1 < length ts)%nat by (apply nth_error_Some; congruence). lia.
Qed.

(** ** C35 *)

Theorem C35_knot_velocities : forall debug g (c : e3_curve R) ts ps d0 d1 out,
  consistent c -> e3_size c = 0%nat -> length ts = length ps -> increasing_times ts ->
  (g + N.of_nat (length ts) < 2 ^ 64)%N ->
  exists g' c' out', e3_fit_with_derivatives debug g c ts ps d0 d1 out = Ok (g', c', out') /\
    forall i t, nth_error ts i = Some t -> exists v, e3_evaluate_derivative c' t 1 = Ok (Some v) /\
      forall a, coord a v = catmull_rom ts (map (coord a) ps) (coord a d0) (coord a d1) i.
Proof.
  intros debug g c ts ps d0 d1 out Hc Hz Hl Hi Hg.
  destruct (e3_fit_spec debug g c ts ps d0 d1 out Hc Hz Hl Hi Hg) as (c' & ks & E & Lk & [Hs _] & Hcon).
  do 3 eexists. split; [exact E|]. intros i t Et.
  assert (L : (i < length ts)%nat) by (apply nth_error_Some; congruence).
  destruct (nth_error ps i) as [p|] eqn:Ep; [|apply nth_error_None in Ep; lia].
  destruct (knot_values c' t (Knot p (fit_velocity ts ps d0 d1 i)) Hs) as [_ Ev].
  { rewrite Hcon. now apply fit_contents_in. }
  eexists. split; [exact Ev|]. intros a. apply coord_fit_velocity.
Qed.

(** The three cases in words: first, last, and interior point. *)
Corollary C35_ends : forall debug g (c : e3_curve R) ts ps d0 d1 out,
  consistent c -> e3_size c = 0%nat -> length ts = length ps -> increasing_times ts -> ts <> [] ->
  (g + N.of_nat (length ts) < 2 ^ 64)%N ->
  exists g' c' out', e3_fit_with_derivatives debug g c ts ps d0 d1 out = Ok (g', c', out') /\
    e3_evaluate_derivative c' (e3_min_time c') 1 = Ok (Some d0) /\
    ((2 <= length ts)%nat -> e3_evaluate_derivative c' (e3_max_time c') 1 = Ok (Some d1)).
Proof.
  intros debug g c ts ps d0 d1 out Hc Hz Hl Hi Hne Hg.
  destruct (e3_fit_spec debug g c ts ps d0 d1 out Hc Hz Hl Hi Hg) as (c' & ks & E & Lk & [Hs _] & Hcon).
  do 3 eexists. split; [exact E|].
  assert (X : forall i, (i < length ts)%nat ->
    e3_evaluate_derivative c' (nth i ts 0) 1 = Ok (Some (fit_velocity ts ps d0 d1 i))).
  { intros i L. destruct (nth_error ps i) as [p|] eqn:Ep; [|apply nth_error_None in Ep; lia].
    apply (knot_values c' _ (Knot p (fit_velocity ts ps d0 d1 i)) Hs).
    rewrite Hcon. apply fit_contents_in; auto. now apply nth_error_nth'. }
  assert (Ln : (0 < length ts)%nat) by (destruct ts; simpl; [congruence|lia]).
  assert (Et : get_times c' = ts).
  { rewrite <- contents_times, Hcon. apply map_fst_combine. now rewrite fit_knots_length. }
  split.
  - replace (e3_min_time c') with (nth 0 ts 0).
    + now rewrite X.
    + unfold e3_min_time, min_time. rewrite <- Et. unfold get_times. now destruct (nodes c').
  - intros L2. replace (e3_max_time c') with (nth (length ts - 1) ts 0).
    + rewrite X by lia. unfold fit_velocity. destruct (length ts - 1)%nat as [|j] eqn:Ej; [lia|].
      replace (S (S j)) with (length ts) by lia. now rewrite Nat.eqb_refl.
    + unfold e3_max_time. rewrite <- al_max_spec. unfold al_max. rewrite contents_times, Et.
      clear - Hne. destruct ts as [|t ts _] using rev_ind; [congruence|].
      rewrite app_length, app_nth2 by (simpl; lia). rewrite last_last. simpl.
      replace (length ts + 1 - 1 - length ts)%nat with 0%nat by lia. reflexivity.
Qed.

(** ** C36 *)

(** On every segment the curve is the polynomial of degree at most three with the
    values and derivatives stored in the two coefficients, and such a polynomial exists. *)
Theorem C36_segment_is_hermite_cubic : forall (c : e3_curve R) ta ka tb kb a,
  consistent c -> adjacent (contents c) (ta, ka) (tb, kb) ->
  ta < tb /\
  (exists c0 c1 c2 c3,
    cubic c0 c1 c2 c3 ta = coord a (k_pos ka) /\ dcubic c0 c1 c2 c3 ta = coord a (k_vel ka) /\
    cubic c0 c1 c2 c3 tb = coord a (k_pos kb) /\ dcubic c0 c1 c2 c3 tb = coord a (k_vel kb)) /\
  forall c0 c1 c2 c3,
    cubic c0 c1 c2 c3 ta = coord a (k_pos ka) -> dcubic c0 c1 c2 c3 ta = coord a (k_vel ka) ->
    cubic c0 c1 c2 c3 tb = coord a (k_pos kb) -> dcubic c0 c1 c2 c3 tb = coord a (k_vel kb) ->
    forall t, ta <= t <= tb ->
      (exists v, e3_evaluate c t = Ok (Some v) /\ coord a v = cubic c0 c1 c2 c3 t) /\
      (exists v, e3_evaluate_derivative c t 1 = Ok (Some v) /\ coord a v = dcubic c0 c1 c2 c3 t) /\
      (t < tb \/ tb = e3_max_time c ->
       exists v, e3_evaluate_derivative c t 2 = Ok (Some v) /\ coord a v = ddcubic c0 c1 c2 c3 t).
Proof.
  intros c ta ka tb kb a Hc (u & v & E). pose proof (consistent_incr _ _ _ _ _ _ _ Hc E) as Hlt.
  split; [exact Hlt|]. split; [now apply hermite_cubic_exists|].
  intros c0 c1 c2 c3 E0 E1 E2 E3 t Ht. split; [|split].
  - eexists. split; [exact (evaluate_segment c u ta ka tb kb v t Hc E Ht)|].
    rewrite coord_value, <- E0, <- E1, <- E2, <- E3. now apply hval_cubic.
  - eexists. split; [exact (velocity_segment c u ta ka tb kb v t Hc E Ht)|].
    rewrite coord_velocity, <- E0, <- E1, <- E2, <- E3. now apply hvel_cubic.
  - intros Hend. eexists. split.
    + apply (acceleration_segment c u ta ka tb kb v t Hc E).
      destruct (Rle_lt_or_eq_dec t tb) as [L|L]; [lra|left; lra|]. right. split; [exact L|].
      destruct Hend as [X|X]; [lra|]. destruct v as [|[tc kc] v]; auto. exfalso.
      change (u ++ (ta, ka) :: (tb, kb) :: (tc, kc) :: v) with (u ++ [(ta, ka)] ++ (tb, kb) :: (tc, kc) :: v) in E.
      rewrite app_assoc in E. pose proof (consistent_incr _ _ _ _ _ _ _ Hc E) as L2.
      destruct (contents_split _ _ _ _ _ _ _ E) as (x & n0 & n1 & y & En & _ & _ & E6 & _).
      assert (I1 : In n1 (nodes c)) by (rewrite En, in_app_iff; simpl; auto).
      pose proof (max_time_bound c n1 Hc I1) as B. apply tle_R in B. unfold e3_max_time in X. lra.
    + rewrite coord_acceleration, <- E0, <- E1, <- E2, <- E3. now apply hacc_cubic.
Qed.

(** Derivative at every interior time, knots included; continuity of the derivative;
    second derivative strictly between knots; one sided derivatives at the ends. *)
Theorem C36_continuously_differentiable : forall (c : e3_curve R) a,
  consistent c -> (2 <= e3_size c)%nat ->
  (forall t, e3_min_time c < t < e3_max_time c ->
     derivable_pt_lim (fun s => coord a (pos_at c s)) t (coord a (vel_at c t)) /\
     continuity_pt (fun s => coord a (vel_at c s)) t) /\
  (forall ta ka tb kb t, adjacent (contents c) (ta, ka) (tb, kb) -> ta < t < tb ->
     derivable_pt_lim (fun s => coord a (vel_at c s)) t (coord a (acc_at c t))) /\
  right_derivative (fun s => coord a (pos_at c s)) (e3_min_time c) (coord a (vel_at c (e3_min_time c))) /\
  left_derivative (fun s => coord a (pos_at c s)) (e3_max_time c) (coord a (vel_at c (e3_max_time c))).
Proof.
  intros c a Hc Hsz. split; [|split].
  - intros t Ht. split; [now apply interior_derivative|now apply interior_velocity_continuous].
  - intros ta ka tb kb t Ha Ht. now apply (segment_acceleration c Hc t ta ka tb kb).
  - now apply ends_derivative.
Qed.

(** The second derivative is in general not continuous at a knot: fitting the points
    0, 0, 1 (on the first axis) at the times 0, 1, 2 with zero end velocities. *)
Theorem C36_acceleration_jumps_refuted :
  exists (c : e3_curve R), consistent c /\ (2 <= e3_size c)%nat /\ e3_min_time c < 1 < e3_max_time c /\
    ~ continuity_pt (fun s => coord AX (acc_at c s)) 1.
Proof.
  destruct (e3_fit_spec false 0%N e3_new [0; 1; 2] [V3 0 0 0; V3 0 0 0; V3 1 0 0] (V3 0 0 0) (V3 0 0 0) [])
    as (c & ks & E & _ & [Hc _] & Hcon); auto.
  { apply consistent_empty. }
  { intros [|[|i]] L; unfold at_knot; simpl in *; try lra. lia. }
  { reflexivity. }
  exists c. split; [exact Hc|].
  cbn [length seq map combine] in Hcon. unfold fit_knot, fit_velocity in Hcon.
  cbn [nth length Nat.eqb] in Hcon. set (k0 := Knot (V3 0 0 0) (V3 0 0 0)) in Hcon.
  set (k2 := Knot (V3 1 0 0) (V3 0 0 0)) in Hcon.
  set (k1 := Knot (V3 0 0 0) (e3_slope 0 2 (V3 0 0 0) (V3 1 0 0))) in Hcon.
  assert (V1 : coord AX (k_vel k1) = / 2) by (unfold k1; cbn [k_vel]; rewrite coord_slope; simpl; field).
  split; [unfold e3_size; rewrite contents_size, Hcon; simpl; lia|].
  assert (Emin : e3_min_time c = 0) by (unfold e3_min_time; now rewrite (min_contents _ _ _ _ Hcon)).
  assert (Emax : e3_max_time c = 2).
  { unfold e3_max_time. now apply (contents_max c [(0, k0); (1, k1)] 2 k2). }
  split; [lra|]. intros Hcont.
  assert (Ea : forall s, 0 <= s < 1 -> coord AX (acc_at c s) = 3 * s - 1).
  { intros s Hs. rewrite (acc_segment c Hc [] 0 k0 1 k1 [(2, k2)] s AX Hcon) by lra.
    rewrite V1. unfold hacc. simpl. field. }
  assert (Eb : coord AX (acc_at c 1) = 4).
  { rewrite (acc_segment c Hc [(0, k0)] 1 k1 2 k2 [] 1 AX Hcon) by lra. rewrite V1. unfold hacc. simpl. field. }
  destruct (Hcont 1) as (al & Hal & Hx); [lra|]. cbn [dist Base R_met] in Hx. unfold R_dist in Hx.
  pose proof (Rmin_l al 1) as M1. pose proof (Rmin_r al 1) as M2.
  assert (M0 : 0 < Rmin al 1) by (apply Rmin_glb_lt; lra).
  specialize (Hx (1 - Rmin al 1 / 2)). rewrite Eb, Ea in Hx by lra.
  assert (X : Rabs (3 * (1 - Rmin al 1 / 2) - 1 - 4) < 1).
  { apply Hx. split; [split; [exact I|]; lra|]. rewrite Rabs_left1; lra. }
  rewrite Rabs_left1 in X; lra.
Qed.

(** ** C37 *)

Lemma domain_of {A} (o : outcome (option A)) (P : Prop) :
  (P /\ exists v, o = Ok (Some v)) \/ (~ P /\ o = Ok None) ->
  ((exists v, o = Ok (Some v)) <-> P) /\ (~ P -> o = Ok None).
Proof. intros [[Hp [v ->]]|[Hp ->]]; (split; [split|]); eauto; try tauto. intros [w [=]]. Qed.

(** A curve with at least one coefficient. *)
Theorem C37_domain : forall (c : e3_curve R) t, consistent c -> e3_is_empty c = false ->
  ((exists v, e3_evaluate c t = Ok (Some v)) <-> e3_min_time c <= t <= e3_max_time c) /\
  (~ e3_min_time c <= t <= e3_max_time c -> e3_evaluate c t = Ok None) /\
  ((exists v, e3_evaluate_derivative c t 1 = Ok (Some v)) <-> e3_min_time c <= t <= e3_max_time c) /\
  (~ e3_min_time c <= t <= e3_max_time c -> e3_evaluate_derivative c t 1 = Ok None).
Proof.
  intros c t Hc Hne. unfold e3_min_time, e3_max_time.
  assert (Hn : contents c <> []).
  { intros X. apply contents_nil in X. unfold e3_is_empty, get_times in Hne. now rewrite X in Hne. }
  destruct (size_cases c) as [X|[(t0 & k & X)|Hsz]]; [congruence| |].
  - rewrite (min_contents _ _ _ _ X), (contents_max c [] t0 k X).
    destruct (evaluate_single _ _ _ t X) as [P Q]. rewrite <- and_assoc. split; apply domain_of;
    (destruct (Req_EM_T t t0) as [->|Hd];
     [left; split; [lra|]; destruct (P eq_refl); eauto
     |right; split; [lra|]; now destruct (Q Hd)]).
  - rewrite <- and_assoc.
    split; apply domain_of; (destruct (Rle_lt_dec (min_time c) t) as [L1|L1];
      [destruct (Rle_lt_dec t (max_time c)) as [L2|L2]|]);
    try (right; split; [lra|]; destruct (evaluate_outside c t Hc Hsz) as (P & Q & _); [lra|assumption]);
    left; (split; [lra|]);
    destruct (find_segment c t Hc Hsz (conj L1 L2)) as (u & ta & ka & tb & kb & v & Es & Hta & Htb);
    [rewrite (evaluate_segment c _ _ _ _ _ _ t Hc Es) by lra|rewrite (velocity_segment c _ _ _ _ _ _ t Hc Es) by lra];
    eauto.
Qed.

(** Second derivative: additionally at least two coefficients.  Other orders always fail. *)
Theorem C37_higher_derivatives : forall (c : e3_curve R) t, consistent c ->
  ((exists v, e3_evaluate_derivative c t 2 = Ok (Some v)) <->
     (2 <= e3_size c)%nat /\ e3_min_time c <= t <= e3_max_time c) /\
  (~ ((2 <= e3_size c)%nat /\ e3_min_time c <= t <= e3_max_time c) -> e3_evaluate_derivative c t 2 = Ok None) /\
  (forall n, n <> 1%N -> n <> 2%N -> e3_evaluate_derivative c t n = Ok None).
Proof.
  intros c t Hc. unfold e3_min_time, e3_max_time, e3_size. split; [|split].
  - unfold e3_evaluate_derivative, e3_evaluate_acceleration. cbn [N.eqb Pos.eqb].
    pose proof (get_at_domain c t Hc) as G. rewrite !tle_R in G. rewrite <- G.
    destruct (get_coefficients_at c t) as [[x y]|]; split; intros [v Hv]; try discriminate; eauto.
  - intros X. unfold e3_evaluate_derivative, e3_evaluate_acceleration. cbn [N.eqb Pos.eqb].
    destruct (get_coefficients_at c t) as [r|] eqn:Eg; [|reflexivity]. exfalso. apply X.
    pose proof (proj1 (get_at_domain c t Hc) (ex_intro _ _ Eg)) as G. now rewrite !tle_R in G.
  - intros n H1 H2. unfold e3_evaluate_derivative.
    destruct (N.eqb_spec n 1); [congruence|]. destruct (N.eqb_spec n 2); [congruence|reflexivity].
Qed.

(** The empty curve: false, except at time zero where end() is dereferenced. *)
Theorem C37_empty : forall (c : e3_curve R) t, e3_is_empty c = true ->
  e3_min_time c = 0 /\ e3_max_time c = 0 /\
  (t <> 0 -> e3_evaluate c t = Ok None /\ e3_evaluate_derivative c t 1 = Ok None) /\
  e3_evaluate c 0 = UB /\ e3_evaluate_derivative c 0 1 = UB /\ e3_evaluate_derivative c 0 2 = Ok None.
Proof.
  intros c t He.
  assert (X : contents c = []).
  { apply contents_nil. unfold e3_is_empty, get_times in He. now destruct (nodes c). }
  pose proof (proj1 (contents_nil c) X) as Xn.
  unfold e3_min_time, e3_max_time, min_time, max_time. rewrite Xn. split; [reflexivity|]. split; [reflexivity|].
  split; [apply (evaluate_empty c t X)|]. destruct (evaluate_empty c 0 X) as [P _].
  destruct (P eq_refl) as [-> ->]. split; auto. split; auto.
  unfold e3_evaluate_derivative, e3_evaluate_acceleration. cbn [N.eqb Pos.eqb]. now rewrite (empty_at c 0 X).
Qed.

(** The claim that evaluation outside the range returns false is therefore wrong. *)
Theorem C37_empty_evaluation_refuted :
  ~ (forall (c : e3_curve R) t, consistent c -> exists r, e3_evaluate c t = Ok r).
Proof.
  intros Hx. destruct (Hx e3_new 0 (consistent_empty)) as [r Hr].
  destruct (C37_empty e3_new 0 eq_refl) as (_ & _ & _ & E & _). congruence.
Qed.

(** ** C38 *)

(** A fit merges the new knots into the curve: the new points are interpolated and all
    knots at other times stay. *)
Theorem C38_fit_merges : forall debug g (c : e3_curve R) ts ps d0 d1 out,
  consistent c -> keys_below g c -> length ts = length ps -> increasing_times ts ->
  (g + N.of_nat (length ts) < 2 ^ 64)%N ->
  exists g' c' out', e3_fit_with_derivatives debug g c ts ps d0 d1 out = Ok (g', c', out') /\
    consistent c' /\ keys_below g' c' /\
    (forall i t p, nth_error ts i = Some t -> nth_error ps i = Some p -> e3_evaluate c' t = Ok (Some p)) /\
    (forall t k, In (t, k) (contents c) -> ~ In t ts ->
       e3_evaluate c' t = Ok (Some (k_pos k)) /\ e3_evaluate_derivative c' t 1 = Ok (Some (k_vel k))) /\
    (forall t, In t (get_times c') <-> In t ts \/ In t (get_times c)).
Proof.
  intros debug g c ts ps d0 d1 out Hc Hb Hl Hi Hg.
  destruct (e3_fit_merge debug g c ts ps d0 d1 out Hc Hb Hl Hi Hg) as (g' & c' & ks & E & Hc' & Hb' & Hx).
  do 3 eexists. split; [exact E|]. split; [exact Hc'|]. split; [exact Hb'|]. split; [|split].
  - intros i t p Et Ep.
    apply (knot_values c' t (Knot p (fit_velocity ts ps d0 d1 i)) Hc').
    apply Hx. left. now apply fit_contents_in.
  - intros t k Hk Hn. apply (knot_values c' t k Hc'). apply Hx. auto.
  - intros t. rewrite <- !contents_times, !in_map_iff.
    assert (F : forall t, In t ts -> exists k, In (t, k)
      (combine ts (map (fit_knot ts ps d0 d1) (seq 0 (length ts))))).
    { intros t0 Ht. apply In_nth_error in Ht as (i & Ei).
      destruct (nth_error ps i) as [p|] eqn:Ep.
      - eexists. eapply fit_contents_in; eauto.
      - apply nth_error_None in Ep. assert (i < length ts)%nat by (apply nth_error_Some; congruence). lia. }
    split.
    + intros ([t0 k] & <- & Hk). apply Hx in Hk as [Hk|[Hk _]].
      * left. now apply in_combine_l in Hk.
      * right. eauto.
    + intros [Ht|([t0 k] & <- & Hk)].
      * destruct (F t Ht) as [k Hk]. exists (t, k). split; [reflexivity|]. apply Hx. auto.
      * cbn [fst]. destruct (in_dec Req_EM_T t0 ts) as [Ht|Ht].
        -- destruct (F t0 Ht) as [k' Hk']. exists (t0, k'). split; [reflexivity|]. apply Hx. auto.
        -- exists (t0, k). split; [reflexivity|]. apply Hx. auto.
Qed.

(** The documented clearing does not happen: after fitting points at 0 and 4 and then
    at 1 and 3, the curve still has the range [0,4] and the old values there. *)
Theorem C38_fit_clears_refuted : exists g1 (c1 : e3_curve R) o1 g2 c2 o2,
  e3_fit true 0%N e3_new [0; 4] [V3 1 0 0; V3 2 0 0] [] = Ok (g1, c1, o1) /\
  e3_fit true g1 c1 [1; 3] [V3 5 0 0; V3 6 0 0] [] = Ok (g2, c2, o2) /\
  e3_evaluate c2 0 = Ok (Some (V3 1 0 0)) /\ e3_min_time c2 = 0 /\
  exists g3 c3 o3, e3_fit true g1 e3_new [1; 3] [V3 5 0 0; V3 6 0 0] [] = Ok (g3, c3, o3) /\
    e3_evaluate c3 0 = Ok None.
Proof.
  assert (I1 : increasing_times [0; 4]).
  { intros [|i] L; unfold at_knot; simpl in *; [lra|lia]. }
  assert (I2 : increasing_times [1; 3]).
  { intros [|i] L; unfold at_knot; simpl in *; [lra|lia]. }
  destruct (e3_fit_spec true 0%N e3_new [0; 4] [V3 1 0 0; V3 2 0 0] vzero vzero [])
    as (c1 & ks & E & _ & [Hc Hb] & Hcon); auto; [apply consistent_empty|reflexivity|].
  exists (0 + N.of_nat (length [0; 4]))%N, c1, ([] ++ ks).
  destruct (C38_fit_merges true (0 + N.of_nat (length [0; 4]))%N c1 [1; 3] [V3 5 0 0; V3 6 0 0] vzero vzero [] Hc Hb
    eq_refl I2 eq_refl) as (g2 & c2 & o2 & E2 & Hc2 & _ & _ & Hold & Htimes).
  exists g2, c2, o2. split; [exact E|]. split; [exact E2|].
  assert (I0 : In (0, fit_knot [0; 4] [V3 1 0 0; V3 2 0 0] vzero vzero 0) (contents c1)).
  { rewrite Hcon. simpl. auto. }
  destruct (Hold 0 _ I0) as [Ev _]; [simpl; intros [X|[X|[]]]; lra|].
  split; [exact Ev|]. split.
  - destruct (nodes c2) as [|n l] eqn:En.
    + exfalso. assert (X : In 1 (get_times c2)) by (apply Htimes; simpl; auto).
      unfold get_times in X. rewrite En in X. destruct X.
    + unfold e3_min_time, min_time. rewrite En.
      assert (A : In (n_time n) (get_times c2)) by (unfold get_times; rewrite En; simpl; auto).
      apply Htimes in A. rewrite <- contents_times, Hcon in A. simpl in A.
      assert (B : In 0 (get_times c2)).
      { apply Htimes. right. rewrite <- contents_times, Hcon. simpl. auto. }
      unfold get_times in B. apply in_map_iff in B as (n0 & En0 & B).
      pose proof (min_time_bound c2 n0 Hc2 B) as C. apply tle_R in C.
      unfold min_time in C. rewrite En in C.
      intuition lra.
  - destruct (C34_fit_curve true (0 + N.of_nat (length [0; 4]))%N e3_new [1; 3] [V3 5 0 0; V3 6 0 0] []
      consistent_empty eq_refl eq_refl I2 eq_refl) as (g3 & c3 & o3 & E3 & Hc3 & _ & _).
    exists g3, c3, o3. split; [exact E3|].
    destruct (e3_fit_spec true (0 + N.of_nat (length [0; 4]))%N e3_new [1; 3] [V3 5 0 0; V3 6 0 0] vzero vzero [])
      as (c3' & ks' & E3' & _ & _ & Hcon3); auto; [apply consistent_empty|reflexivity|].
    unfold e3_fit in E3. rewrite E3' in E3. injection E3 as _ <- _.
    destruct (C37_domain c3' 0 Hc3) as (_ & X & _).
    + unfold e3_is_empty. rewrite <- contents_times, Hcon3. reflexivity.
    + apply X. unfold e3_min_time. simpl in Hcon3. rewrite (min_contents _ _ _ _ Hcon3). lra.
Qed.

(** ** C39 *)

Lemma increasing_lt ts i j : increasing_times ts -> (i < j)%nat -> (j < length ts)%nat ->
  at_knot ts i < at_knot ts j.
Proof.
  intros Hi L. induction L; intros Hj; [now apply Hi|].
  apply Rlt_trans with (at_knot ts m); [apply IHL; lia|]. apply Hi; lia.
Qed.

Lemma seam_derivative (f : R -> R) a b l : a < b -> f a = f b ->
  right_derivative f a l -> left_derivative f b l -> derivable_pt_lim (next_period f a b) b l.
Proof.
  intros Hab Hf Hr Hl eps He. destruct (Hr eps He) as (d1 & P1 & K1). destruct (Hl eps He) as (d2 & P2 & K2).
  assert (Hm : 0 < Rmin d1 d2) by (apply Rmin_glb_lt; lra).
  exists (mkposreal _ Hm). intros h Hh Hb. simpl in Hb.
  pose proof (Rmin_l d1 d2). pose proof (Rmin_r d1 d2).
  unfold next_period. destruct (Rle_dec b b) as [_|X]; [|lra].
  destruct (Rle_dec (b + h) b) as [L|L].
  - assert (h < 0) by (destruct (Req_dec h 0); lra).
    rewrite Rabs_left in Hb by lra. specialize (K2 (- h)). replace (b - - h) with (b + h) in K2 by ring.
    replace ((f (b + h) - f b) / h) with ((f b - f (b + h)) / - h) by (field; lra). apply K2. lra.
  - rewrite Rabs_pos_eq in Hb by lra. rewrite <- Hf. replace (b + h - (b - a)) with (a + h) by ring.
    apply K1. lra.
Qed.

Lemma periodic_fit_eq debug g (c : e3_curve R) ts ps out : length ts = length ps -> (2 <= length ts)%nat ->
  (N.of_nat (length ts) < 2 ^ 64)%N ->
  let d := e3_slope (nth (length ts - 2) ts 0) (nth 1 ts 0) (nth (length ts - 2) ps vzero) (nth 1 ps vzero) in
  e3_fit_periodic debug g c ts ps out = e3_fit_with_derivatives debug g c ts ps d d out.
Proof.
  intros Hl L U. unfold e3_fit_periodic.
  assert (E2 : size_sub (N.of_nat (length ts)) 2 = N.of_nat (length ts - 2)).
  { rewrite size_sub_pos; [lia|lia|exact U]. }
  rewrite E2.
  rewrite (vec_at_nth ts (N.of_nat (length ts - 2)) 0) by lia. cbn [bind].
  rewrite (vec_at_nth ts 1 0) by (simpl; lia). cbn [bind].
  rewrite (vec_at_nth ps (N.of_nat (length ts - 2)) vzero) by lia. cbn [bind].
  rewrite (vec_at_nth ps 1 vzero) by (simpl; lia). cbn [bind].
  rewrite Nat2N.id. reflexivity.
Qed.

(** Both ends get the same derivative, and for equal end points the next period continues
    the curve differentiably. *)
Theorem C39_same_end_derivatives : forall debug g (c : e3_curve R) ts ps out,
  consistent c -> e3_size c = 0%nat -> length ts = length ps -> increasing_times ts ->
  (2 <= length ts)%nat -> (g + N.of_nat (length ts) < 2 ^ 64)%N ->
  exists g' c' out' d, e3_fit_periodic debug g c ts ps out = Ok (g', c', out') /\ consistent c' /\
    (forall i t p, nth_error ts i = Some t -> nth_error ps i = Some p -> e3_evaluate c' t = Ok (Some p)) /\
    e3_evaluate_derivative c' (e3_min_time c') 1 = Ok (Some d) /\
    e3_evaluate_derivative c' (e3_max_time c') 1 = Ok (Some d) /\
    (nth_error ps 0 = nth_error ps (length ps - 1) -> forall a,
       derivable_pt_lim (next_period (fun s => coord a (pos_at c' s)) (e3_min_time c') (e3_max_time c'))
         (e3_max_time c') (coord a d)).
Proof.
  intros debug g c ts ps out Hc Hz Hl Hi L2 Hg.
  rewrite periodic_fit_eq by (auto; lia).
  set (d := e3_slope _ _ _ _).
  assert (Hne : ts <> []) by (intros ->; simpl in L2; lia).
  destruct (C35_ends debug g c ts ps d d out Hc Hz Hl Hi Hne Hg) as (g' & c' & out' & E & Ed0 & Ed1).
  specialize (Ed1 L2).
  destruct (C34_passes_through debug g c ts ps d d out Hc Hz Hl Hi Hg) as (c2 & ks & E2 & _ & Hc' & Ht & Hv).
  rewrite E in E2. injection E2 as -> <- ->.
  do 3 eexists. exists d. split; [exact E|]. split; [exact Hc'|]. split; [exact Hv|].
  split; [exact Ed0|]. split; [exact Ed1|]. intros Heq a.
  assert (Emin : nth_error ts 0 = Some (e3_min_time c')).
  { unfold e3_min_time, min_time. rewrite <- Ht. unfold get_times in *. destruct (nodes c'); [|reflexivity].
    rewrite <- Ht in Hne. simpl in Hne. congruence. }
  assert (Emax : nth_error ts (length ts - 1) = Some (e3_max_time c')).
  { unfold e3_max_time. rewrite <- al_max_spec. unfold al_max. rewrite contents_times, Ht.
    clear - Hne. destruct ts as [|t ts _] using rev_ind; [congruence|].
    rewrite app_length, nth_error_app2 by (simpl; lia). rewrite last_last. simpl.
    replace (length ts + 1 - 1 - length ts)%nat with 0%nat by lia. reflexivity. }
  assert (Hsz : (2 <= size c')%nat).
  { unfold size. replace (length (nodes c')) with (length (get_times c')) by (unfold get_times; now rewrite map_length).
    now rewrite Ht. }
  destruct (ends_derivative c' Hc' a Hsz) as [Dr Dl].
  assert (Lt : e3_min_time c' < e3_max_time c').
  { pose proof (increasing_lt ts 0 (length ts - 1) Hi ltac:(lia) ltac:(lia)) as X. unfold at_knot in X.
    apply nth_error_nth with (d := 0) in Emin. apply nth_error_nth with (d := 0) in Emax.
    now rewrite Emin, Emax in X. }
  assert (V0 : vel_at c' (min_time c') = d) by (unfold vel_at; unfold e3_min_time in Ed0; now rewrite Ed0).
  assert (V1 : vel_at c' (max_time c') = d) by (unfold vel_at; unfold e3_max_time in Ed1; now rewrite Ed1).
  rewrite V0 in Dr. rewrite V1 in Dl.
  apply seam_derivative; auto.
  destruct (nth_error ps 0) as [p0|] eqn:Ep0; [|apply nth_error_None in Ep0; lia].
  symmetry in Heq. rewrite <- Hl in Heq.
  unfold pos_at. now rewrite (Hv _ _ _ Emin Ep0), (Hv _ _ _ Emax Heq).
Qed.

(** For four or more points this derivative points the wrong way: compared with the slope
    over the seam every component has the opposite sign. *)
Theorem C39_end_derivative_reversed : forall debug g (c : e3_curve R) ts ps out,
  consistent c -> e3_size c = 0%nat -> length ts = length ps -> increasing_times ts ->
  (4 <= length ts)%nat -> (g + N.of_nat (length ts) < 2 ^ 64)%N ->
  exists g' c' out' d, e3_fit_periodic debug g c ts ps out = Ok (g', c', out') /\
    e3_evaluate_derivative c' (e3_min_time c') 1 = Ok (Some d) /\
    forall a, let s := seam_slope ts (map (coord a) ps) in
      (s = 0 -> coord a d = 0) /\ (0 < s -> coord a d < 0) /\ (s < 0 -> 0 < coord a d).
Proof.
  intros debug g c ts ps out Hc Hz Hl Hi L4 Hg.
  rewrite periodic_fit_eq by (auto; lia). set (d := e3_slope _ _ _ _).
  assert (Hne : ts <> []) by (intros ->; simpl in L4; lia).
  destruct (C35_ends debug g c ts ps d d out Hc Hz Hl Hi Hne Hg) as (g' & c' & out' & E & Ed0 & _).
  do 3 eexists. exists d. split; [exact E|]. split; [exact Ed0|]. intros a s.
  unfold d. rewrite coord_slope. unfold s, seam_slope, at_knot. rewrite !nth_coord.
  pose proof (increasing_lt ts 1 (length ts - 2) Hi ltac:(lia) ltac:(lia)) as T1.
  pose proof (increasing_lt ts 0 1 Hi ltac:(lia) ltac:(lia)) as T2.
  pose proof (increasing_lt ts (length ts - 2) (length ts - 1) Hi ltac:(lia) ltac:(lia)) as T3.
  unfold at_knot in T1, T2, T3.
  set (x := coord a (nth 1 ps vzero) - coord a (nth (length ts - 2) ps vzero)).
  set (u := nth 1 ts 0 - nth (length ts - 2) ts 0).
  set (w := nth 1 ts 0 - nth 0 ts 0 + (nth (length ts - 1) ts 0 - nth (length ts - 2) ts 0)).
  assert (Hu : u < 0) by (unfold u; lra). assert (Hw : 0 < w) by (unfold w; lra).
  assert (Iu : / u < 0) by now apply Rinv_lt_0_compat.
  assert (Iw : 0 < / w) by now apply Rinv_0_lt_compat.
  unfold Rdiv. split; [|split]; intros Hs.
  - assert (x = 0) as -> by nra. ring.
  - assert (0 < x) by nra. nra.
  - assert (x < 0) by nra. nra.
Qed.

(** So the expected end derivative is not the one used. *)
Theorem C39_seam_slope_refuted :
  ~ (forall g (c : e3_curve R) ts ps out g' c' out', consistent c -> e3_size c = 0%nat ->
       length ts = length ps -> increasing_times ts -> (4 <= length ts)%nat ->
       e3_fit_periodic true g c ts ps out = Ok (g', c', out') ->
       exists d, e3_evaluate_derivative c' (e3_min_time c') 1 = Ok (Some d) /\
         forall a, coord a d = seam_slope ts (map (coord a) ps)).
Proof.
  intros Hx.
  set (ts := [0; 1; 2; 3]). set (ps := [V3 0 0 0; V3 1 0 0; V3 0 0 0; V3 0 0 0]).
  assert (Hi : increasing_times ts).
  { intros [|[|[|i]]] L; unfold at_knot; simpl in *; try lra. lia. }
  destruct (C39_end_derivative_reversed true 0%N e3_new ts ps [] consistent_empty eq_refl eq_refl Hi
    ltac:(simpl; lia) eq_refl) as (g' & c' & o' & d & E & Ed & Hs).
  destruct (Hx 0%N e3_new ts ps [] g' c' o' consistent_empty eq_refl eq_refl Hi ltac:(simpl; lia) E) as (d' & Ed' & Hd).
  rewrite Ed in Ed'. injection Ed' as <-. specialize (Hs AX). specialize (Hd AX). cbv zeta in Hs.
  assert (X : seam_slope ts (map (coord AX) ps) = / 2) by (unfold seam_slope, at_knot; simpl; field).
  rewrite X in *. destruct Hs as (_ & Hs & _). specialize (Hs ltac:(lra)). lra.
Qed.

(** For three points the slope is taken over a time interval of length zero, in any arithmetic. *)
Lemma three_points_zero_interval : forall (S : Type) (HN : Num S) (HT : TimeOps S) debug g
  (c : e3_curve S) t0 t1 t2 p0 p1 p2 out,
  let d := e3_slope t1 t1 p1 p1 in
  e3_fit_periodic debug g c [t0; t1; t2] [p0; p1; p2] out =
  e3_fit_with_derivatives debug g c [t0; t1; t2] [p0; p1; p2] d d out.
Proof. reflexivity. Qed.

(** With fewer than two points an element outside the vector is read. *)
Theorem C39_too_few_points : forall debug g (c : e3_curve R) ts ps out,
  (length ts < 2)%nat -> e3_fit_periodic debug g c ts ps out = UB.
Proof.
  intros debug g c ts ps out L. unfold e3_fit_periodic.
  rewrite (vec_at_out ts); [reflexivity|].
  assert (X : (1 <= size_sub (N.of_nat (length ts)) 2)%N) by
    (destruct ts as [|t0 [|t1 ts]]; [discriminate|discriminate|simpl in L; lia]).
  lia.
Qed.

(** ** C40 *)

(** A curve whose knots lie on a cubic (value and velocity) is that cubic. *)
Lemma curve_is_cubic (c : e3_curve R) (P V A : R -> vec3 R) :
  consistent c -> (2 <= e3_size c)%nat ->
  (forall a, exists c0 c1 c2 c3, forall t, coord a (P t) = cubic c0 c1 c2 c3 t /\
     coord a (V t) = dcubic c0 c1 c2 c3 t /\ coord a (A t) = ddcubic c0 c1 c2 c3 t) ->
  (forall t k, In (t, k) (contents c) -> k_pos k = P t /\ k_vel k = V t) ->
  forall t, e3_min_time c <= t <= e3_max_time c ->
    e3_evaluate c t = Ok (Some (P t)) /\ e3_evaluate_derivative c t 1 = Ok (Some (V t)) /\
    e3_evaluate_derivative c t 2 = Ok (Some (A t)).
Proof.
  intros Hc Hsz Hp Hk t Ht.
  destruct (find_segment c t Hc Hsz Ht) as (u & ta & ka & tb & kb & v & Es & Hta & Htb).
  assert (Ia : In (ta, ka) (contents c)) by (rewrite Es, in_app_iff; simpl; auto).
  assert (Ib : In (tb, kb) (contents c)) by (rewrite Es, in_app_iff; simpl; auto).
  destruct (Hk _ _ Ia) as [Pa Va]. destruct (Hk _ _ Ib) as [Pb Vb].
  assert (Hend : t < tb \/ tb = e3_max_time c).
  { destruct Htb as [L|[_ Ev]]; [now left|]. right. subst v. symmetry.
    apply (contents_max c (u ++ [(ta, ka)]) tb kb). now rewrite Es, <- app_assoc. }
  assert (G : forall a,
    (exists v, e3_evaluate c t = Ok (Some v) /\ coord a v = coord a (P t)) /\
    (exists v, e3_evaluate_derivative c t 1 = Ok (Some v) /\ coord a v = coord a (V t)) /\
    (exists v, e3_evaluate_derivative c t 2 = Ok (Some v) /\ coord a v = coord a (A t))).
  { intros a. destruct (Hp a) as (c0 & c1 & c2 & c3 & Hq).
    destruct (C36_segment_is_hermite_cubic c ta ka tb kb a Hc) as (_ & _ & Hs); [now exists u, v|].
    destruct (Hq t) as (-> & -> & ->). destruct (Hq ta) as (Q1 & Q2 & _). destruct (Hq tb) as (Q3 & Q4 & _).
    destruct (Hs c0 c1 c2 c3) with (t := t) as (G1 & G2 & G3); try congruence; [lra|]. auto. }
  split; [|split].
  - destruct (G AX) as [(w & Ew & _) _]. rewrite Ew in *. do 2 f_equal. apply vec3_ext. intros a.
    destruct (G a) as [(w' & Ew' & E) _]. now injection Ew' as ->.
  - destruct (G AX) as (_ & (w & Ew & _) & _). rewrite Ew in *. do 2 f_equal. apply vec3_ext. intros a.
    destruct (G a) as (_ & (w' & Ew' & E) & _). now injection Ew' as ->.
  - destruct (G AX) as (_ & _ & (w & Ew & _)). rewrite Ew in *. do 2 f_equal. apply vec3_ext. intros a.
    destruct (G a) as (_ & _ & (w' & Ew' & E)). now injection Ew' as ->.
Qed.

Lemma fit_knots_in (ts : list R) (vs : list (vec3 R)) d0 d1 t k : length ts = length vs ->
  In (t, k) (combine ts (map (fit_knot ts vs d0 d1) (seq 0 (length ts)))) ->
  exists i, (i < length ts)%nat /\ nth_error ts i = Some t /\
    k_pos k = nth i vs vzero /\ k_vel k = fit_velocity ts vs d0 d1 i.
Proof.
  intros Hl Hk. apply In_nth_error in Hk as (i & Ei). exists i.
  assert (L : (i < length ts)%nat).
  { assert (X : (i < length (combine ts (map (fit_knot ts vs d0 d1) (seq 0 (length ts)))))%nat)
      by (apply nth_error_Some; congruence). rewrite combine_length in X. lia. }
  rewrite (nth_error_combine _ _ _ _ _ (nth_error_nth' ts 0 L) (fit_knots_nth _ _ _ _ _ L)) in Ei.
  injection Ei as <- <-. rewrite (nth_error_nth' ts 0 L). auto.
Qed.

Theorem C40_reproduces_straight_motion : forall debug g (c : e3_curve R) ts p v out,
  consistent c -> e3_size c = 0%nat -> increasing_times ts -> (2 <= length ts)%nat ->
  (g + N.of_nat (length ts) < 2 ^ 64)%N ->
  exists g' c' out', e3_fit_with_derivatives debug g c ts (map (straight p v) ts) v v out = Ok (g', c', out') /\
    forall t, e3_min_time c' <= t <= e3_max_time c' ->
      e3_evaluate c' t = Ok (Some (straight p v t)) /\ e3_evaluate_derivative c' t 1 = Ok (Some v) /\
      e3_evaluate_derivative c' t 2 = Ok (Some (V3 0 0 0)).
Proof.
  intros debug g c ts p v out Hc Hz Hi L2 Hg.
  destruct (e3_fit_spec debug g c ts (map (straight p v) ts) v v out Hc Hz) as (c' & ks & E & _ & [Hs _] & Hcon);
    [now rewrite map_length|auto|auto|].
  do 3 eexists. split; [exact E|].
  apply (curve_is_cubic c' (straight p v) (fun _ => v) (fun _ => V3 0 0 0) Hs).
  - unfold e3_size. rewrite contents_size, Hcon, combine_length, fit_knots_length. lia.
  - intros a. exists (coord a p), (coord a v), 0, 0. intros t. unfold cubic, dcubic, ddcubic.
    rewrite coord_straight. split; [ring|]. split; [ring|]. destruct a; simpl; ring.
  - intros t k Hk. rewrite Hcon in Hk. apply fit_knots_in in Hk as (i & L & Et & -> & ->); [|now rewrite map_length].
    rewrite (nth_map_in (straight p v) ts _ _ 0) by auto. rewrite (nth_error_nth _ _ _ Et).
    split; [reflexivity|]. now apply fit_velocity_straight.
Qed.

(** With equidistant times also motions with constant acceleration are reproduced. *)
Theorem C40_reproduces_constant_acceleration : forall debug g (c : e3_curve R) h ts p v w out,
  consistent c -> e3_size c = 0%nat -> 0 < h -> equidistant h ts -> (2 <= length ts)%nat ->
  (g + N.of_nat (length ts) < 2 ^ 64)%N ->
  let d0 := quadratic_velocity v w (at_knot ts 0) in
  let d1 := quadratic_velocity v w (at_knot ts (length ts - 1)) in
  exists g' c' out', e3_fit_with_derivatives debug g c ts (map (quadratic p v w) ts) d0 d1 out = Ok (g', c', out') /\
    forall t, e3_min_time c' <= t <= e3_max_time c' ->
      e3_evaluate c' t = Ok (Some (quadratic p v w t)) /\
      e3_evaluate_derivative c' t 1 = Ok (Some (quadratic_velocity v w t)) /\
      e3_evaluate_derivative c' t 2 = Ok (Some (scaled 2 w)).
Proof.
  intros debug g c h ts p v w out Hc Hz Hh He L2 Hg d0 d1.
  assert (Hi : increasing_times ts) by (intros i L; rewrite (He i L); lra).
  destruct (e3_fit_spec debug g c ts (map (quadratic p v w) ts) d0 d1 out Hc Hz) as (c' & ks & E & _ & [Hs _] & Hcon);
    [now rewrite map_length|auto|auto|].
  do 3 eexists. split; [exact E|].
  apply (curve_is_cubic c' (quadratic p v w) (quadratic_velocity v w) (fun _ => scaled 2 w) Hs).
  - unfold e3_size. rewrite contents_size, Hcon, combine_length, fit_knots_length. lia.
  - intros a. exists (coord a p), (coord a v), (coord a w), 0. intros t. unfold cubic, dcubic, ddcubic.
    unfold quadratic, quadratic_velocity. rewrite !coord_straight, coord_scaled.
    split; [ring|]. split; ring.
  - intros t k Hk. rewrite Hcon in Hk. apply fit_knots_in in Hk as (i & L & Et & -> & ->); [|now rewrite map_length].
    rewrite (nth_map_in (quadratic p v w) ts _ _ 0) by auto. rewrite (nth_error_nth _ _ _ Et).
    split; [reflexivity|]. apply nth_error_nth with (d := 0) in Et. subst t.
    unfold fit_velocity. destruct i as [|j]; [reflexivity|].
    destruct (Nat.eqb_spec (S (S j)) (length ts)) as [X|X].
    + unfold d1, at_knot. do 2 f_equal. f_equal. lia.
    + rewrite !(nth_map_in (quadratic p v w) ts _ _ 0) by lia. cbn [tzero R_TimeOps].
      apply vec3_ext. intros a. rewrite coord_slope. unfold quadratic, quadratic_velocity. rewrite !coord_straight.
      pose proof (He j ltac:(lia)) as E1. pose proof (He (S j) ltac:(lia)) as E2. unfold at_knot in E1, E2.
      rewrite E2, E1. field. lra.
Qed.

(** Mapping the data by an affine map, and the times by a shift and a positive scaling,
    does the same to the curve; derivatives change by the linear part and the scaling. *)
Theorem C40_equivariant : forall debug g1 g2 (c1 c2 : e3_curve R) ts ps d0 d1 out1 out2 M b al s,
  consistent c1 -> e3_size c1 = 0%nat -> consistent c2 -> e3_size c2 = 0%nat ->
  length ts = length ps -> ts <> [] -> increasing_times ts -> 0 < al ->
  (g1 + N.of_nat (length ts) < 2 ^ 64)%N -> (g2 + N.of_nat (length ts) < 2 ^ 64)%N ->
  exists g1' c1' o1 g2' c2' o2,
    e3_fit_with_derivatives debug g1 c1 ts ps d0 d1 out1 = Ok (g1', c1', o1) /\
    e3_fit_with_derivatives debug g2 c2 (map (fun t => al * t + s) ts) (map (affine M b) ps)
      (scaled (/ al) (linear M d0)) (scaled (/ al) (linear M d1)) out2 = Ok (g2', c2', o2) /\
    forall t,
      e3_evaluate c2' (al * t + s) = on_value (affine M b) (e3_evaluate c1' t) /\
      e3_evaluate_derivative c2' (al * t + s) 1 =
        on_value (fun v => scaled (/ al) (linear M v)) (e3_evaluate_derivative c1' t 1) /\
      e3_evaluate_derivative c2' (al * t + s) 2 =
        on_value (fun v => scaled (/ (al * al)) (linear M v)) (e3_evaluate_derivative c1' t 2).
Proof.
  intros debug g1 g2 c1 c2 ts ps d0 d1 out1 out2 M b al s H1 Z1 H2 Z2 Hl Hne Hi Ha G1 G2.
  destruct (e3_fit_spec debug g1 c1 ts ps d0 d1 out1 H1 Z1 Hl Hi G1) as (c1' & k1 & E1 & _ & [S1 _] & Hcon1).
  destruct (e3_fit_spec debug g2 c2 (map (fun t => al * t + s) ts) (map (affine M b) ps)
    (scaled (/ al) (linear M d0)) (scaled (/ al) (linear M d1)) out2 H2 Z2) as (c2' & k2 & E2 & _ & [S2 _] & Hcon2).
  { now rewrite !map_length. } { now apply increasing_moved. } { now rewrite map_length. }
  rewrite fit_moved, <- Hcon1 in Hcon2 by auto.
  do 6 eexists. split; [exact E1|]. split; [exact E2|]. intros t. apply evaluate_moved; auto.
  rewrite Hcon1. intros X. apply Hne. apply (f_equal (@length _)) in X.
  rewrite combine_length, fit_knots_length in X. destruct ts; [reflexivity|simpl in X; lia].
Qed.

(** The statement for a motion sampled at other than equidistant times is false for
    constant acceleration: t^2 on the first axis at 0, 1, 3. *)
Theorem C40_constant_acceleration_refuted :
  ~ (forall ts p v w g' (c' : e3_curve R) out', increasing_times ts -> (2 <= length ts)%nat ->
      e3_fit_with_derivatives true 0%N e3_new ts (map (quadratic p v w) ts)
        (quadratic_velocity v w (at_knot ts 0)) (quadratic_velocity v w (at_knot ts (length ts - 1))) [] =
        Ok (g', c', out') ->
      forall t, e3_min_time c' <= t <= e3_max_time c' ->
        e3_evaluate_derivative c' t 1 = Ok (Some (quadratic_velocity v w t))).
Proof.
  intros Hx. set (ts := [0; 1; 3]).
  assert (Hi : increasing_times ts).
  { intros [|[|i]] L; unfold at_knot; simpl in *; try lra. lia. }
  set (p := V3 0 0 0 : vec3 R). set (w := V3 1 0 0 : vec3 R).
  destruct (e3_fit_spec true 0%N e3_new ts (map (quadratic p p w) ts) (quadratic_velocity p w (at_knot ts 0))
    (quadratic_velocity p w (at_knot ts (length ts - 1))) [] consistent_empty eq_refl eq_refl Hi eq_refl)
    as (c' & ks & E & _ & [Hs _] & Hcon).
  assert (D : e3_min_time c' <= 1 <= e3_max_time c').
  { simpl in Hcon. unfold e3_min_time. rewrite (min_contents _ _ _ _ Hcon).
    unfold e3_max_time. match type of Hcon with _ = [?x; ?y; (?t, ?k)] =>
      rewrite (contents_max c' [x; y] t k Hcon) end. lra. }
  specialize (Hx ts p p w _ _ _ Hi ltac:(simpl; lia) E 1 D).
  destruct (knot_values c' 1 (Knot (quadratic p p w 1) (fit_velocity ts (map (quadratic p p w) ts)
    (quadratic_velocity p w (at_knot ts 0)) (quadratic_velocity p w (at_knot ts (length ts - 1))) 1)) Hs) as [_ Ev].
  { rewrite Hcon. apply fit_contents_in with (i := 1%nat); reflexivity. }
  rewrite Ev in Hx. injection Hx as Hx. lra.
Qed.

(** ** Instances of the hypotheses *)

Definition ts4 : list R := [0; 1; 2; 3].
Definition ps4 : list (vec3 R) := [V3 1 0 0; V3 0 1 0; V3 (-1) 0 0; V3 1 0 0].
Lemma ts4_equidistant : equidistant 1 ts4.
Proof. intros [|[|[|i]]] L; unfold at_knot; simpl in *; try lra. lia. Qed.
Lemma ts4_increasing : increasing_times ts4.
Proof. intros i L. rewrite (ts4_equidistant i L). lra. Qed.

Example C34_example : exists g' c' out', e3_fit true 0 (e3_new : e3_curve R) ts4 ps4 [] = Ok (g', c', out') /\
  e3_evaluate c' 1 = Ok (Some (V3 0 1 0)).
Proof.
  destruct (C34_fit_curve true 0 e3_new ts4 ps4 [] consistent_empty eq_refl eq_refl ts4_increasing eq_refl)
    as (g' & c' & o & E & _ & Hv & _).
  do 3 eexists. split; [exact E|]. apply (Hv 1%nat); reflexivity.
Qed.

Example C35_example : exists g' (c' : e3_curve R) out',
  e3_fit_with_derivatives true 0 e3_new ts4 ps4 (V3 0 0 7) (V3 7 0 0) [] = Ok (g', c', out') /\
  (exists v, e3_evaluate_derivative c' 1 1 = Ok (Some v) /\ coord AX v = -1) /\
  e3_evaluate_derivative c' (e3_min_time c') 1 = Ok (Some (V3 0 0 7)).
Proof.
  destruct (C35_knot_velocities true 0 e3_new ts4 ps4 (V3 0 0 7) (V3 7 0 0) [] consistent_empty eq_refl eq_refl
    ts4_increasing eq_refl) as (g' & c' & o & E & Hv).
  destruct (C35_ends true 0 e3_new ts4 ps4 (V3 0 0 7) (V3 7 0 0) [] consistent_empty eq_refl eq_refl
    ts4_increasing ltac:(discriminate) eq_refl) as (g2 & c2 & o2 & E2 & He & _).
  rewrite E in E2. injection E2 as <- <- <-.
  do 3 eexists. split; [exact E|]. split; [|exact He].
  destruct (Hv 1%nat 1 eq_refl) as (v & Ev & Hc). exists v. split; [exact Ev|].
  rewrite (Hc AX). unfold catmull_rom, at_knot. simpl. field.
Qed.

(** C36, C37: the fitted curve is consistent and has at least two coefficients. *)
Example C36_example : exists c : e3_curve R, consistent c /\ (2 <= e3_size c)%nat /\ e3_is_empty c = false /\
  exists ta ka tb kb, adjacent (contents c) (ta, ka) (tb, kb).
Proof.
  destruct (e3_fit_spec true 0%N e3_new ts4 ps4 vzero vzero [] consistent_empty eq_refl eq_refl ts4_increasing eq_refl)
    as (c & ks & _ & _ & [Hc _] & Hcon).
  exists c. split; [exact Hc|]. split; [|split].
  - unfold e3_size. rewrite contents_size, Hcon. simpl. lia.
  - unfold e3_is_empty. rewrite <- contents_times, Hcon. reflexivity.
  - simpl in Hcon. do 4 eexists. exists []. eexists. exact Hcon.
Qed.

Example C38_example : exists (c : e3_curve R) g, consistent c /\ keys_below g c /\ (0 < e3_size c)%nat /\
  (g + N.of_nat (length ts4) < 2 ^ 64)%N.
Proof.
  destruct (e3_fit_spec true 0%N e3_new ts4 ps4 vzero vzero [] consistent_empty eq_refl eq_refl ts4_increasing eq_refl)
    as (c & ks & _ & _ & [Hc Hb] & Hcon).
  exists c. eexists. split; [exact Hc|]. split; [exact Hb|]. split; [|reflexivity].
  unfold e3_size. rewrite contents_size, Hcon. simpl. lia.
Qed.

Example C39_example : exists g' (c' : e3_curve R) out' d, e3_fit_periodic true 0 e3_new ts4 ps4 [] = Ok (g', c', out') /\
  e3_evaluate_derivative c' (e3_min_time c') 1 = Ok (Some d) /\ coord AX d < 0.
Proof.
  destruct (C39_end_derivative_reversed true 0 e3_new ts4 ps4 [] consistent_empty eq_refl eq_refl ts4_increasing
    ltac:(simpl; lia) eq_refl) as (g' & c' & o & d & E & Ed & Hs).
  do 4 eexists. split; [exact E|]. split; [exact Ed|]. apply (Hs AX).
  unfold seam_slope, at_knot. simpl. lra.
Qed.

Example C40_example : exists g' (c' : e3_curve R) out',
  e3_fit_with_derivatives true 0 e3_new ts4 (map (straight (V3 1 2 3) (V3 4 5 6)) ts4) (V3 4 5 6) (V3 4 5 6) [] =
  Ok (g', c', out').
Proof.
  destruct (C40_reproduces_straight_motion true 0 e3_new ts4 (V3 1 2 3) (V3 4 5 6) [] consistent_empty eq_refl
    ts4_increasing ltac:(simpl; lia) eq_refl) as (g' & c' & o & E & _). eauto.
Qed.

Print Assumptions C34_passes_through.
Print Assumptions C34_fit_curve.
Print Assumptions C35_knot_velocities.
Print Assumptions C35_ends.
Print Assumptions C36_segment_is_hermite_cubic.
Print Assumptions C36_continuously_differentiable.
Print Assumptions C36_acceleration_jumps_refuted.
Print Assumptions C37_domain.
Print Assumptions C37_higher_derivatives.
Print Assumptions C37_empty.
Print Assumptions C37_empty_evaluation_refuted.
Print Assumptions C38_fit_merges.
Print Assumptions C38_fit_clears_refuted.
Print Assumptions C39_same_end_derivatives.
Print Assumptions C39_end_derivative_reversed.
Print Assumptions C39_seam_slope_refuted.
Print Assumptions C39_too_few_points.
Print Assumptions C40_reproduces_straight_motion.
Print Assumptions C40_reproduces_constant_acceleration.
Print Assumptions C40_equivariant.
Print Assumptions C40_constant_acceleration_refuted.
