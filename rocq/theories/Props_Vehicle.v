(** * C123: how closely a curve in SE(2) follows the vehicle it was sampled from *)

From Coquelicot Require Import Coquelicot.
From Coq Require Import List Reals Lra Lia Bool Arith NArith ZArith Permutation Sorting.Sorted.
From Verif Require Pose2Proofs.
From Verif Require Import Base TimeOrder TimeInst KeyGen Manager ManagerSpec ManagerProofs ManagerProofs2
  ManagerProofs3 Num Sampling SamplingSpec SamplingProofs HermiteE3 HermiteSpec HermiteE3Proofs Props_HermiteSE3
  Quat QuatSpec QuatProofs QuatLog QuatDist HermiteSE3 HermiteSE3Spec HermiteSE3Proofs Props_HalfTurn Props_Speed Props_Sampled
  Discrete DiscreteSpec DiscreteProofs
  Props_Manager Props_Discrete Composition Props_Composition Slerp2 Se2 Props_Slerp2 Props_Piecewise Props_DiscreteSampled.
Import ListNotations.
Local Open Scope R_scope.

Local Notation se2_curve := (@slerp_curve R pose2).
Local Notation se2_at := (semi_evaluate se2_exp se2_log se2_scale).

(** Not in the source: the length of a vector in the plane. *)
Definition planar (x y : R) : R := sqrt (x * x + y * y).

(** Not in the source: a vehicle drives no faster than [V] and turns no faster than [W]. *)
Definition drives (x y th : R -> R) (V W : R) : Prop :=
  forall s t, planar (x s - x t) (y s - y t) <= V * Rabs (s - t) /\ Rabs (th s - th t) <= W * Rabs (s - t).

(** Not in the source: the pose of the vehicle at time [t]. *)
Definition vehicle (x y th : R -> R) (t : R) : pose2 := Pose2 (rot_of (th t)) (x t) (y t).

(** Not in the source: the pose lies within [ep] of the vehicle at time [t] and its heading, up to full turns, within [eh]. *)
Definition near (x y th : R -> R) (ep eh t : R) (P : pose2) : Prop :=
  exists a, p2_rot P = rot_of a /\ Rabs (a - th t) <= eh /\ planar (p2_x P - x t) (p2_y P - y t) <= ep.

Lemma planar_norm x y : planar x y = vnorm (V3 x y 0).
Proof. unfold planar, vnorm. cbn. numR. f_equal. ring. Qed.

Lemma planar_pos x y : 0 <= planar x y.
Proof. apply sqrt_pos. Qed.

Lemma planar_sqr x y : planar x y * planar x y = x * x + y * y.
Proof. apply sqrt_sqrt. pose proof (Rle_0_sqr x). pose proof (Rle_0_sqr y). unfold Rsqr in *. lra. Qed.

Lemma planar_add a b c d : planar (a + c) (b + d) <= planar a b + planar c d.
Proof.
  rewrite !planar_norm. eapply Rle_trans; [|apply vnorm_add]. right. f_equal. unfold HermiteE3.vadd. cbn. numR. f_equal; ring.
Qed.

Lemma planar_scale s a b : planar (s * a) (s * b) = Rabs s * planar a b.
Proof. rewrite !planar_norm, <- vnorm_scale. f_equal. unfold vscale. cbn. numR. f_equal; ring. Qed.

(** ** An arc and its chord *)

Lemma wave_bound a b r s : 0 <= r -> a * a + b * b <= r * r -> Rabs (a * cos s + b * sin s) <= r.
Proof.
  intros Hr H. apply le_by_squares; [exact Hr|]. rewrite <- Rabs_mult, Rabs_pos_eq by apply Rle_0_sqr.
  pose proof (cos_sin_unit s) as U. set (c := cos s) in *. set (z := sin s) in *.
  pose proof (Rle_0_sqr (a * z - b * c)) as Q. unfold Rsqr in Q.
  replace ((a * c + b * z) * (a * c + b * z)) with ((a * a + b * b) * (c * c + z * z) - (a * z - b * c) * (a * z - b * c)) by ring.
  rewrite U. lra.
Qed.

Lemma wave_taylor a b r s t : 0 <= r -> a * a + b * b <= r * r ->
  Rabs (a * cos s + b * sin s - (a * cos t + b * sin t) - (b * cos t - a * sin t) * (s - t)) <= r * ((s - t) * (s - t) / 2).
Proof.
  intros Hr H.
  pose proof (taylor1 (fun z => a * cos z + b * sin z) (fun z => b * cos z - a * sin z) (Rmin s t) (Rmax s t)) as T.
  replace (a * cos s + b * sin s - (a * cos t + b * sin t) - (b * cos t - a * sin t) * (s - t))
    with (a * cos s + b * sin s - (a * cos t + b * sin t + (b * cos t - a * sin t) * (s - t) + 0 * ((s - t) * (s - t)))) by ring.
  apply T.
  - intros z _. auto_derive; [exact I|ring].
  - intros u v _ _. replace (r * Rabs (u - v)) with (r * Rabs (u - v) ^ 1 / INR 1) by (cbn; field).
    apply (bounded_from (fun z => b * cos z - a * sin z - (b * cos v - a * sin v)) (fun z => - (a * cos z + b * sin z)) v u r 0).
    + intros z _. auto_derive; [exact I|ring].
    + ring.
    + intros z _. rewrite pow_O, Rmult_1_r, Rabs_Ropp. now apply wave_bound.
  - split; [apply Rmin_l|apply Rmax_l].
  - split; [apply Rmin_r|apply Rmax_r].
Qed.

Lemma wave_chord a b r d x : 0 <= r -> a * a + b * b <= r * r -> 0 <= x <= 1 ->
  a * cos (x * d) + b * sin (x * d) - ((1 - x) * a + x * (a * cos d + b * sin d)) <= r * (d * d) / 8.
Proof.
  intros Pr H Hx. pose proof (Rle_0_sqr d) as Pd. unfold Rsqr in Pd. pose proof (Rmult_le_pos _ _ Pr Pd) as Prd.
  pose proof (wave_taylor a b r 0 (x * d) Pr H) as T0. pose proof (wave_taylor a b r d (x * d) Pr H) as T1.
  rewrite cos_0, sin_0 in T0. apply Rabs_le_between in T0, T1. destruct T0 as [T0 _]. destruct T1 as [T1 _].
  apply (Rmult_le_compat_l (1 - x)) in T0; [|lra]. apply (Rmult_le_compat_l x) in T1; [|lra].
  pose proof (quarter x Hx) as Hq. pose proof (Rmult_le_compat_l _ _ _ Prd (proj2 Hq)) as Hq'.
  match goal with |- ?g <= _ => replace g with (- ((1 - x) * (a * 1 + b * 0 - (a * cos (x * d) + b * sin (x * d)) - (b * cos (x * d) - a * sin (x * d)) * (0 - x * d))
    + x * (a * cos d + b * sin d - (a * cos (x * d) + b * sin (x * d)) - (b * cos (x * d) - a * sin (x * d)) * (d - x * d)))) by ring end.
  replace ((1 - x) * - (r * ((0 - x * d) * (0 - x * d) / 2))) with (- (r * (d * d) * (x * (1 - x))) * x / 2) in T0 by field.
  replace (x * - (r * ((d - x * d) * (d - x * d) / 2))) with (- (r * (d * d) * (x * (1 - x))) * (1 - x) / 2) in T1 by field.
  lra.
Qed.

Lemma arc_chord px py d x : 0 <= x <= 1 ->
  planar (cos (x * d) * px - sin (x * d) * py - ((1 - x) * px + x * (cos d * px - sin d * py)))
         (sin (x * d) * px + cos (x * d) * py - ((1 - x) * py + x * (sin d * px + cos d * py))) <= planar px py * (d * d) / 8.
Proof.
  intros Hx. pose proof (planar_pos px py) as Pr. pose proof (planar_sqr px py) as Sr. set (r := planar px py) in *.
  pose proof (Rle_0_sqr d) as Pd. unfold Rsqr in Pd. pose proof (Rmult_le_pos _ _ Pr Pd) as Prd.
  rewrite planar_norm. apply along_norm; [lra|]. intros u U.
  pose proof (vnorm_sqr u) as Q. rewrite U in Q. destruct u as [ux uy uz]. unfold along in *. cbn [HermiteE3.vx HermiteE3.vy HermiteE3.vz] in *.
  set (a := ux * px + uy * py). set (b := uy * px - ux * py).
  assert (H : a * a + b * b <= r * r).
  { rewrite Sr. unfold a, b. replace ((ux * px + uy * py) * (ux * px + uy * py) + (uy * px - ux * py) * (uy * px - ux * py))
      with ((ux * ux + uy * uy) * (px * px + py * py)) by ring.
    rewrite <- (Rmult_1_l (px * px + py * py)) at 2. apply Rmult_le_compat_r.
    - rewrite <- Sr. now apply Rmult_le_pos.
    - pose proof (Rle_0_sqr uz) as Z. unfold Rsqr in Z. lra. }
  match goal with |- ?g <= _ => replace g with (a * cos (x * d) + b * sin (x * d) - ((1 - x) * a + x * (a * cos d + b * sin d))) by (unfold a, b; ring) end.
  now apply wave_chord.
Qed.

(** The chord is not much shorter than the arc. *)
Lemma sine_share b : 0 <= b <= PI / 2 -> 5 / 8 * b <= sin b.
Proof.
  intros Hb. pose proof (Pose2Proofs.sin_low b) as L. pose proof PI_4 as P4. specialize (L ltac:(lra)).
  assert (B : b <= 1571 / 1000).
  { destruct (Rle_dec b (1571 / 1000)) as [X|X]; [exact X|]. exfalso.
    assert (PI / 2 <= 1571 / 1000); [|lra].
    pose proof (Pose2Proofs.cos_high (1571 / 1000)) as C. specialize (C ltac:(lra)).
    assert (cos (1571 / 1000) < 0) by lra.
    destruct (Rle_dec (PI / 2) (1571 / 1000)) as [Y|Y]; [exact Y|]. pose proof (cos_ge_0 (1571 / 1000) ltac:(lra) ltac:(lra)). lra. }
  assert (X : b * b <= 247 / 100) by nra. set (w := b * b) in *. assert (Pw : 0 <= w) by (unfold w; nra).
  replace (b - b ^ 3 / 6 + b ^ 5 / 120 - b ^ 7 / 5040) with (b * (1 - w / 6 + w * w / 120 - w * w * w / 5040)) in L by (unfold w; field).
  eapply Rle_trans; [|exact L]. rewrite Rmult_comm. apply Rmult_le_compat_l; [lra|]. nra.
Qed.

Lemma radius_length r d c : 0 <= r -> 0 <= d <= PI -> 2 * sin (d / 2) * r <= c -> r * (d * d) / 8 <= c * d / 5.
Proof.
  intros Hr Hd Hc. pose proof (sine_share (d / 2) ltac:(lra)) as S.
  assert (0 <= r * d) as P1 by (apply Rmult_le_pos; lra). pose proof (Rmult_le_compat_l _ _ _ P1 S).
  pose proof (Rmult_le_compat_r d _ _ ltac:(lra) Hc). lra.
Qed.

Lemma chord_length px py d : Rabs d <= PI ->
  planar px py * (d * d) / 8 <= planar (cos d * px - sin d * py - px) (sin d * px + cos d * py - py) * Rabs d / 5.
Proof.
  intros Hd. pose proof (Rabs_pos d) as Pd. pose proof (planar_pos px py) as Pr.
  assert (E : planar (cos d * px - sin d * py - px) (sin d * px + cos d * py - py) = 2 * sin (Rabs d / 2) * planar px py).
  { assert (S0 : 0 <= sin (Rabs d / 2)) by (apply sin_ge_0; lra).
    unfold planar at 1. rewrite <- (sqrt_Rsqr (2 * sin (Rabs d / 2) * planar px py)) by (apply Rmult_le_pos; lra). f_equal. unfold Rsqr.
    replace (2 * sin (Rabs d / 2) * planar px py * (2 * sin (Rabs d / 2) * planar px py))
      with (2 * (2 * sin (Rabs d / 2) * sin (Rabs d / 2)) * (planar px py * planar px py)) by ring.
    rewrite planar_sqr. pose proof (cos_2a_sin (Rabs d / 2)) as C. replace (2 * (Rabs d / 2)) with (Rabs d) in C by field.
    assert (C' : cos (Rabs d) = cos d) by (unfold Rabs; destruct (Rcase_abs d); [apply cos_neg|reflexivity]).
    rewrite C' in C. replace (2 * sin (Rabs d / 2) * sin (Rabs d / 2)) with (1 - cos d) by lra.
    pose proof (cos_sin_unit d) as U.
    transitivity ((cos d * cos d + sin d * sin d + 1 - 2 * cos d) * (px * px + py * py)); [ring|rewrite U; ring]. }
  replace (d * d) with (Rabs d * Rabs d) by (rewrite <- Rabs_mult; apply Rabs_pos_eq, Rle_0_sqr).
  apply radius_length; [exact Pr|lra|rewrite E; lra].
Qed.

(** ** C123 *)

Lemma between_lipschitz V (ta tb t : R) (a b : R) : ta <= t <= tb -> ta < tb -> 0 <= V ->
  a <= V * Rabs (ta - t) -> b <= V * Rabs (tb - t) ->
  let x := (t - ta) / (tb - ta) in (1 - x) * a + x * b <= V * ((tb - ta) / 2).
Proof.
  intros Ht Hlt HV Ha Hb x.
  assert (Et : t - ta = x * (tb - ta)) by (unfold x; field; lra).
  assert (X : 0 <= x <= 1) by (split; apply (Rmult_le_reg_r (tb - ta)); lra).
  rewrite Rabs_left1 in Ha by lra. rewrite Rabs_pos_eq in Hb by lra.
  replace (- (ta - t)) with (x * (tb - ta)) in Ha by lra. replace (tb - t) with ((1 - x) * (tb - ta)) in Hb by lra.
  set (d := tb - ta) in *. assert (Pd : 0 < d) by (unfold d; lra).
  apply (Rmult_le_compat_l (1 - x)) in Ha; [|lra]. apply (Rmult_le_compat_l x) in Hb; [|lra].
  pose proof (quarter x X) as Hq. assert (0 <= V * d) as PV by (apply Rmult_le_pos; lra).
  pose proof (Rmult_le_compat_l _ _ _ PV (proj2 Hq)). lra.
Qed.

Section Vehicle.
Variables (x y th : R -> R) (V W h ep eh : R).
Hypothesis HV : 0 <= V.
Hypothesis HW : 0 <= W.
Hypothesis Hp : 0 <= ep.
Hypothesis Ha : 0 <= eh.
Hypothesis Hd : drives x y th V W.
Hypothesis Hslow : W * h + 2 * eh < PI.

(** The bound on the position. *)
Let far := V * (h / 2) + ep + (V * h + 2 * ep) * (W * h + 2 * eh) / 5.

Lemma segment_follows (c : se2_curve) ta tb A B t : consistent (s_mgr c) ->
  adjacent (contents (s_mgr c)) (ta, A) (tb, B) -> near x y th ep eh ta A -> near x y th ep eh tb B ->
  tb - ta <= h -> ta <= t <= tb ->
  exists P, se2_at c t = Ok P /\ near x y th far (W * (h / 2) + eh) t P.
Proof.
  intros Hc Hadj (a & Ra & Na & Pa) (b & Rb & Nb & Pb) Hh Ht.
  destruct (C74_segment c _ _ _ _ Hc Hadj) as (Hlt & d & Bd & Er & Hst & Hcirc).
  destruct (Hd ta t) as [Va Wa]. destruct (Hd tb t) as [Vb Wb]. destruct (Hd tb ta) as [Vab Wab].
  rewrite (Rabs_pos_eq (tb - ta)) in Vab, Wab by lra.
  assert (Wh : W * (tb - ta) <= W * h) by (apply Rmult_le_compat_l; lra).
  assert (Vh : V * (tb - ta) <= V * h) by (apply Rmult_le_compat_l; lra).
  assert (Dab : Rabs (b - a) <= W * h + 2 * eh).
  { replace (b - a) with ((b - th tb) + ((th tb - th ta) + - (a - th ta))) by ring.
    eapply Rle_trans; [apply Rabs_triang|]. eapply Rle_trans; [apply Rplus_le_compat_l, Rabs_triang|]. rewrite Rabs_Ropp. lra. }
  assert (Ed : d = b - a).
  { apply (C74_angle_unique A B); auto.
    - apply Rabs_le_between in Dab. lra.
    - rewrite Ra, Rb, rot_add. f_equal. lra. }
  assert (Cab : planar (p2_x B - p2_x A) (p2_y B - p2_y A) <= V * h + 2 * ep).
  { replace (p2_x B - p2_x A) with ((p2_x B - x tb) + ((x tb - x ta) + -1 * (p2_x A - x ta))) by ring.
    replace (p2_y B - p2_y A) with ((p2_y B - y tb) + ((y tb - y ta) + -1 * (p2_y A - y ta))) by ring.
    eapply Rle_trans; [apply planar_add|]. eapply Rle_trans; [apply Rplus_le_compat_l, planar_add|].
    rewrite planar_scale, (Rabs_left1 (-1)) by lra. lra. }
  set (al := (t - ta) / (tb - ta)) in *.
  assert (X : 0 <= al <= 1).
  { assert (Et : t - ta = al * (tb - ta)) by (unfold al; field; lra). split; apply (Rmult_le_reg_r (tb - ta)); lra. }
  assert (HA : Rabs (a + al * d - th t) <= W * (h / 2) + eh).
  { replace (a + al * d - th t) with (((1 - al) * (a - th ta) + al * (b - th tb)) + ((1 - al) * (th ta - th t) + al * (th tb - th t))) by (rewrite Ed; ring).
    eapply Rle_trans; [apply Rabs_triang|].
    eapply Rle_trans; [apply Rplus_le_compat; apply Rabs_triang|]. rewrite !Rabs_mult, (Rabs_pos_eq (1 - al)), (Rabs_pos_eq al) by lra.
    pose proof (between_lipschitz W ta tb t _ _ Ht Hlt HW Wa Wb) as Q. cbv zeta in Q. fold al in Q.
    apply (Rmult_le_compat_l (1 - al)) in Na; [|lra]. apply (Rmult_le_compat_l al) in Nb; [|lra]. lra. }
  assert (HC : planar ((1 - al) * p2_x A + al * p2_x B - x t) ((1 - al) * p2_y A + al * p2_y B - y t) <= V * (h / 2) + ep).
  { replace ((1 - al) * p2_x A + al * p2_x B - x t) with (((1 - al) * (p2_x A - x ta) + al * (p2_x B - x tb)) + ((1 - al) * (x ta - x t) + al * (x tb - x t))) by ring.
    replace ((1 - al) * p2_y A + al * p2_y B - y t) with (((1 - al) * (p2_y A - y ta) + al * (p2_y B - y tb)) + ((1 - al) * (y ta - y t) + al * (y tb - y t))) by ring.
    eapply Rle_trans; [apply planar_add|]. eapply Rle_trans; [apply Rplus_le_compat; apply planar_add|].
    rewrite !planar_scale, (Rabs_pos_eq (1 - al)), (Rabs_pos_eq al) by lra.
    pose proof (between_lipschitz V ta tb t _ _ Ht Hlt HV Va Vb) as Q. cbv zeta in Q. fold al in Q.
    apply (Rmult_le_compat_l (1 - al)) in Pa; [|lra]. apply (Rmult_le_compat_l al) in Pb; [|lra]. lra. }
  assert (K : planar (p2_x B - p2_x A) (p2_y B - p2_y A) * Rabs d <= (V * h + 2 * ep) * (W * h + 2 * eh)).
  { apply Rmult_le_compat; [apply planar_pos|apply Rabs_pos|exact Cab|rewrite Ed; exact Dab]. }
  assert (P5 : 0 <= planar (p2_x B - p2_x A) (p2_y B - p2_y A) * Rabs d) by (apply Rmult_le_pos; [apply planar_pos|apply Rabs_pos]).
  destruct (Req_dec d 0) as [Z|Z].
  - destruct (Hst Z t Ht) as (P & EP & Rp & Px & Py). fold al in Px, Py.
    exists P. split; [exact EP|]. exists a. split; [now rewrite Rp|]. rewrite Z, Rmult_0_r, Rplus_0_r in HA. split; [exact HA|].
    rewrite Px, Py. unfold far. lra.
  - destruct (Hcirc Z) as (qx & qy & Hq). destruct (Hq t Ht) as (P & EP & Rp & Px & Py).
    destruct (Hq tb ltac:(lra)) as (B' & EB & _ & Bx & By).
    assert (HB : se2_at c tb = Ok B).
    { apply C60_at_coefficient; [apply se2_exp_log|exact Hc|]. destruct Hadj as (u & w & E). rewrite E, in_app_iff. simpl. auto. }
    assert (B' = B) by congruence. subst B'.
    replace ((tb - ta) / (tb - ta)) with 1 in Bx, By by (field; lra). rewrite Rmult_1_l in Bx, By.
    unfold turn_x, turn_y, rot_of in Bx, By, Px, Py. cbn [rc rs] in Bx, By, Px, Py. fold al in Px, Py, Rp.
    exists P. split; [exact EP|]. exists (a + al * d). split.
    { rewrite Rp, Ra, rot_add. f_equal. apply Rplus_comm. }
    split; [exact HA|].
    set (px := p2_x A - qx) in *. set (py := p2_y A - qy) in *.
    pose proof (arc_chord px py d al X) as AC. pose proof (chord_length px py d) as CL.
    assert (Dpi : Rabs d <= PI) by (rewrite Ed; lra). specialize (CL Dpi).
    replace (cos d * px - sin d * py - px) with (p2_x B - p2_x A) in CL by (unfold px at 2; lra).
    replace (sin d * px + cos d * py - py) with (p2_y B - p2_y A) in CL by (unfold py at 2; lra).
    replace (p2_x P - x t) with ((cos (al * d) * px - sin (al * d) * py - ((1 - al) * px + al * (cos d * px - sin d * py)))
      + ((1 - al) * p2_x A + al * p2_x B - x t)) by (rewrite <- Bx, <- Px; unfold px; ring).
    replace (p2_y P - y t) with ((sin (al * d) * px + cos (al * d) * py - ((1 - al) * py + al * (sin d * px + cos d * py)))
      + ((1 - al) * p2_y A + al * p2_y B - y t)) by (rewrite <- By, <- Py; unfold py; ring).
    eapply Rle_trans; [apply planar_add|]. unfold far. lra.
Qed.

(** A curve whose coefficients are measured poses of the vehicle at times at most [h] apart, while
    the vehicle seems to turn by less than half a turn between them. *)
Theorem C123_curve : forall (c : se2_curve) t, consistent (s_mgr c) ->
  (forall t P, In (t, P) (contents (s_mgr c)) -> near x y th ep eh t P) ->
  covered (map fst (contents (s_mgr c))) h -> in_range (map fst (contents (s_mgr c))) t ->
  exists P, se2_at c t = Ok P /\
    near x y th (V * (h / 2) + ep + (V * h + 2 * ep) * (W * h + 2 * eh) / 5) (W * (h / 2) + eh) t P.
Proof.
  intros c t Hc Hs Hg (a & b & Ia & Ib & Ht).
  apply in_map_iff in Ia as ((a0 & va) & Ea & Ia). apply in_map_iff in Ib as ((b0 & vb) & Eb & Ib). cbn [fst] in *. subst a0 b0.
  assert (Hn : contents (s_mgr c) <> []) by (intros X; rewrite X in Ia; destruct Ia).
  pose proof (contents_bounds _ _ _ Hc Ia). pose proof (contents_bounds _ _ _ Hc Ib).
  destruct (pw_cases (s_mgr c) t Hc Hn ltac:(lra)) as [(v & Hv)|(u & ta & A & tb & B & w & E & Ht')].
  - exists v. split; [apply C60_at_coefficient; auto; apply se2_exp_log|]. destruct (Hs _ _ Hv) as (q & Rq & Nq & Pq).
    exists q. split; [exact Rq|].
    assert (Ph : 0 <= h).
    { destruct (Hg a b t) as (a' & b' & _ & _ & ? & ?); auto; [now apply (in_map fst) in Ia|now apply (in_map fst) in Ib|lra]. }
    pose proof (Rmult_le_pos _ _ HW Ph) as PW. pose proof (Rmult_le_pos _ _ HV Ph) as PV.
    assert (0 <= (V * h + 2 * ep) * (W * h + 2 * eh)) by (apply Rmult_le_pos; lra). split; lra.
  - assert (Hadj : adjacent (contents (s_mgr c)) (ta, A) (tb, B)) by (now exists u, w).
    assert (IA : In (ta, A) (contents (s_mgr c))) by (rewrite E, in_app_iff; simpl; auto).
    assert (IB : In (tb, B) (contents (s_mgr c))) by (rewrite E, in_app_iff; simpl; auto).
    apply (segment_follows c ta tb A B t); auto; [|lra].
    destruct (Hg ta tb t) as (a' & b' & Ja & Jb & Hab & Hh); [now apply (in_map fst) in IA|now apply (in_map fst) in IB|lra|].
    apply in_map_iff in Ja as ((? & v1) & <- & Ja). apply in_map_iff in Jb as ((? & v2) & <- & Jb). cbn [fst] in *.
    destruct (split_bounds _ _ _ _ _ _ _ _ _ Hc E Ja) as [?|[[? _]|[[? _]|?]]];
    destruct (split_bounds _ _ _ _ _ _ _ _ _ Hc E Jb) as [?|[[? _]|[[? _]|?]]]; lra.
Qed.

(** The same for a curve fitted to measured poses of the vehicle, given in any order. *)
Theorem C123_fit : forall g (c : se2_curve) ts Ps out, length ts = length Ps -> ts <> [] -> (g + N.of_nat (length ts) < 2 ^ 64)%N ->
  (forall t P, In (t, P) (combine ts Ps) -> near x y th ep eh t P) -> covered ts h ->
  exists g' c' ks, slerp_fit g c ts Ps out = Ok (g', c', out ++ ks) /\
    forall t, in_range ts t -> exists P, se2_at c' t = Ok P /\
      near x y th (V * (h / 2) + ep + (V * h + 2 * ep) * (W * h + 2 * eh) / 5) (W * (h / 2) + eh) t P.
Proof.
  intros g c ts vs out Hl Hn Hg Hm Hgap.
  destruct (C75_fit twist2 se2_exp se2_log se2_scale g c ts vs out se2_exp_log Hl Hn Hg) as (g' & c' & ks & E & [Hc' _] & Hi & _).
  exists g', c', ks. split; [exact E|].
  assert (Htimes : forall t, In t (map fst (contents (s_mgr c'))) <-> In t ts).
  { intros t. rewrite in_map_iff. split.
    - intros ((u & v) & <- & Hu). apply Hi, last_value_in in Hu. exact Hu.
    - intros Ht. destruct (in_last_value ts vs t Hl Ht) as (v & Ev). exists (t, v). split; [reflexivity|now apply Hi]. }
  intros t (a & b & Ia & Ib & Ht). apply C123_curve; auto.
  - intros u v Hu. apply Hi in Hu. apply Hm.
    clear - Hu. revert Hu. induction (combine ts vs) as [|(s & w) l IH]; [discriminate|].
    cbn [last_value]. destruct (last_value l u) as [v'|] eqn:El.
    + intros X. right. apply IH. exact X.
    + destruct (teq s u) eqn:Et; [|discriminate]. intros X. injection X as <-. left. apply teq_R in Et. congruence.
  - intros a' b' t' Ha' Hb' Ht'. apply Htimes in Ha', Hb'.
    destruct (Hgap a' b' t' Ha' Hb' Ht') as (p & q & Ip & Iq & R1). exists p, q. rewrite !Htimes. auto.
  - exists a, b. rewrite !Htimes. auto.
Qed.

End Vehicle.

Lemma vehicle_near x y th t : near x y th 0 0 t (vehicle x y th t).
Proof.
  exists (th t). cbn [vehicle p2_rot p2_x p2_y]. rewrite !Rminus_eq_0, Rabs_R0. unfold planar. replace (0 * 0 + 0 * 0) with 0 by ring.
  rewrite sqrt_0. split; [reflexivity|lra].
Qed.

(** ** How good the bounds are *)

Lemma fit_two (x y th : R -> R) h : 0 < h ->
  exists g' (c' : se2_curve) ks, slerp_fit 0 (Slerp mgr_empty policy_default) [0; h] (map (vehicle x y th) [0; h]) [] = Ok (g', c', ks) /\
    consistent (s_mgr c') /\ adjacent (contents (s_mgr c')) (0, vehicle x y th 0) (h, vehicle x y th h).
Proof.
  intros Hh.
  destruct (C75_fit twist2 se2_exp se2_log se2_scale 0%N (Slerp mgr_empty policy_default) [0; h] (map (vehicle x y th) [0; h]) [] se2_exp_log)
    as (g' & c' & ks & E & [Hc' _] & Hi & _); [reflexivity|discriminate|reflexivity|].
  exists g', c', ks. split; [exact E|]. split; [exact Hc'|].
  assert (T0 : teq 0 0 = true) by (now apply teq_R). assert (Th : teq h h = true) by (now apply teq_R).
  assert (T2 : teq h 0 = false) by (apply not_true_iff_false; rewrite teq_R; lra).
  assert (I0 : In (0, vehicle x y th 0) (contents (s_mgr c'))) by (apply Hi; cbn [map combine last_value]; now rewrite T2, T0).
  assert (I1 : In (h, vehicle x y th h) (contents (s_mgr c'))) by (apply Hi; cbn [map combine last_value]; now rewrite Th).
  assert (Only : forall t v, In (t, v) (contents (s_mgr c')) -> t = 0 \/ t = h).
  { intros t v X. apply Hi, last_value_in in X. simpl in X. intuition. }
  assert (Hn : contents (s_mgr c') <> []) by (intros X; rewrite X in I0; destruct I0).
  pose proof (contents_bounds _ _ _ Hc' I0). pose proof (contents_bounds _ _ _ Hc' I1).
  destruct (pw_cases (s_mgr c') (h / 2) Hc' Hn ltac:(lra)) as [(v & Hv)|(u & ta & A & tb & B & w & Ec & Ht')].
  - apply Only in Hv. lra.
  - assert (IA : In (ta, A) (contents (s_mgr c'))) by (rewrite Ec, in_app_iff; simpl; auto).
    assert (IB : In (tb, B) (contents (s_mgr c'))) by (rewrite Ec, in_app_iff; simpl; auto).
    assert (ta = 0) as -> by (destruct (Only _ _ IA); lra). assert (tb = h) as -> by (destruct (Only _ _ IB); lra).
    rewrite (contents_unique _ _ _ _ Hc' IA I0), (contents_unique _ _ _ _ Hc' IB I1) in Ec. now exists u, w.
Qed.

(** Not in the source: forth until time [h / 2], then back. *)
Definition forth_back (h t : R) : R := h / 2 - Rabs (t - h / 2).

Lemma forth_back_lipschitz h s t : Rabs (forth_back h s - forth_back h t) <= Rabs (s - t).
Proof.
  unfold forth_back. replace (h / 2 - Rabs (s - h / 2) - (h / 2 - Rabs (t - h / 2))) with (- (Rabs (s - h / 2) - Rabs (t - h / 2))) by ring.
  rewrite Rabs_Ropp. eapply Rle_trans; [apply Rabs_triang_inv2|]. right. f_equal. ring.
Qed.

Lemma forth_back_drives V W h : 0 <= V -> 0 <= W ->
  drives (fun t => V * forth_back h t) (fun _ => 0) (fun t => W * forth_back h t) V W.
Proof.
  intros HV HW s t. pose proof (forth_back_lipschitz h s t) as L. split.
  - replace (V * forth_back h s - V * forth_back h t) with (V * (forth_back h s - forth_back h t)) by ring.
    replace (0 - 0) with (V * 0) by ring. rewrite planar_scale, (Rabs_pos_eq V) by exact HV. apply Rmult_le_compat_l; [exact HV|].
    unfold planar. replace (0 * 0) with 0 by ring. rewrite Rplus_0_r. fold (Rsqr (forth_back h s - forth_back h t)). rewrite sqrt_Rsqr_abs. exact L.
  - replace (W * forth_back h s - W * forth_back h t) with (W * (forth_back h s - forth_back h t)) by ring.
    rewrite Rabs_mult, (Rabs_pos_eq W) by exact HW. now apply Rmult_le_compat_l.
Qed.

(** The bound on the heading and the part of the bound on the position that does not depend on the
    turning are reached, whatever [V], [W] and [h]: by a vehicle that moves forth and back between two samples. *)
Theorem C123_sharp : forall V W h, 0 <= V -> 0 <= W -> 0 < h -> W * h < PI ->
  let x := fun t => V * forth_back h t in let y := fun _ => 0 in let th := fun t => W * forth_back h t in
  drives x y th V W /\
  exists g' (c' : se2_curve) ks P, slerp_fit 0 (Slerp mgr_empty policy_default) [0; h] (map (vehicle x y th) [0; h]) [] = Ok (g', c', ks) /\
    se2_at c' (h / 2) = Ok P /\ (forall a, p2_rot P = rot_of a -> W * (h / 2) <= Rabs (a - th (h / 2))) /\
    planar (p2_x P - x (h / 2)) (p2_y P - y (h / 2)) = V * (h / 2).
Proof.
  intros V W h HV HW Hh Hs x y th. split; [now apply forth_back_drives|].
  destruct (fit_two x y th h Hh) as (g' & c' & ks & E & Hc & Hadj).
  assert (F0 : forth_back h 0 = 0) by (unfold forth_back; rewrite Rabs_left1 by lra; lra).
  assert (F1 : forth_back h h = 0) by (unfold forth_back; rewrite Rabs_pos_eq by lra; lra).
  assert (F2 : forth_back h (h / 2) = h / 2) by (unfold forth_back; rewrite Rminus_eq_0, Rabs_R0; lra).
  destruct (C74_segment c' _ _ _ _ Hc Hadj) as (_ & d & Bd & Er & Hst & _).
  pose proof PI_RGT_0 as PP.
  assert (Z : d = 0).
  { apply (C74_angle_unique (vehicle x y th 0) (vehicle x y th h)); auto; [lra|].
    cbn [vehicle p2_rot]. unfold th. rewrite F0, F1, rot_add. f_equal. lra. }
  destruct (Hst Z (h / 2) ltac:(lra)) as (P & EP & Rp & Px & Py).
  exists g', c', ks, P. split; [exact E|]. split; [exact EP|]. cbv zeta in Px, Py. cbn [vehicle p2_rot p2_x p2_y] in *.
  unfold x, y, th in *. rewrite F0, F1 in *. rewrite F2. rewrite !Rmult_0_r in *. split.
  - intros a Ea. rewrite Rp in Ea. destruct (Rle_lt_dec (W * (h / 2)) (Rabs (a - W * (h / 2)))) as [X|X]; [exact X|]. exfalso.
    apply Rabs_def2 in X. assert (Ca : cos 0 = cos a) by exact (f_equal rc Ea). rewrite cos_0 in Ca.
    pose proof (cos_decreasing_1 0 a ltac:(lra) ltac:(lra) ltac:(lra) ltac:(lra) ltac:(lra)) as Cd. rewrite cos_0 in Cd. lra.
  - rewrite Px, Py. replace (0 + 0 - V * (h / 2)) with (V * (h / 2) * -1) by ring.
    replace (0 + 0 - 0) with (V * (h / 2) * 0) by ring. rewrite planar_scale.
    assert (0 <= V * (h / 2)) by (apply Rmult_le_pos; lra). rewrite Rabs_pos_eq by lra.
    unfold planar. replace (-1 * -1 + 0 * 0) with 1 by ring. rewrite sqrt_1. ring.
Qed.

(** Without the condition that the vehicle turns by less than half a turn between two samples
    nothing remains of this: after three quarters of a turn between two samples the curve points backwards
    in the middle. *)
Theorem C123_fast_refuted : exists x y th V W h, drives x y th V W /\ 0 < h /\ PI < W * h /\
  exists g' (c' : se2_curve) ks P, slerp_fit 0 (Slerp mgr_empty policy_default) [0; h] (map (vehicle x y th) [0; h]) [] = Ok (g', c', ks) /\
    se2_at c' (h / 2) = Ok P /\ p2_rot P = rot_of (th (h / 2) + PI).
Proof.
  pose proof PI_RGT_0 as PP.
  set (x := fun _ : R => 0). set (y := fun _ : R => 0). set (th := fun t => 3 * PI / 2 * t).
  exists x, y, th, 0, (3 * PI / 2), 1. split; [|split; [lra|split; [lra|]]].
  { intros s t. unfold x, y, th, planar. replace ((0 - 0) * (0 - 0) + (0 - 0) * (0 - 0)) with 0 by ring. rewrite sqrt_0.
    split; [lra|]. replace (3 * PI / 2 * s - 3 * PI / 2 * t) with (3 * PI / 2 * (s - t)) by ring.
    rewrite Rabs_mult, (Rabs_pos_eq (3 * PI / 2)) by lra. lra. }
  destruct (fit_two x y th 1 ltac:(lra)) as (g' & c' & ks & E & Hc & Hadj).
  destruct (C74_segment c' _ _ _ _ Hc Hadj) as (_ & d & Bd & Er & _ & Hcirc).
  assert (Ed : d = - (PI / 2)).
  { apply (C74_angle_unique (vehicle x y th 0) (vehicle x y th 1)); auto; [lra|].
    cbn [vehicle p2_rot]. unfold th. rewrite rot_add. replace (3 * PI / 2 * 1) with (- (PI / 2) + 3 * PI / 2 * 0 + 2 * INR 1 * PI) by (cbn; field).
    apply rot2_ext; cbn [rc rs rot_of]; [apply cos_period|apply sin_period]. }
  destruct (Hcirc ltac:(lra)) as (qx & qy & Hq). destruct (Hq (1 / 2) ltac:(lra)) as (P & EP & Rp & _).
  exists g', c', ks, P. split; [exact E|]. split; [exact EP|]. rewrite Rp, Ed. cbn [vehicle p2_rot]. unfold th.
  rewrite rot_add. replace (3 * PI / 2 * (1 / 2) + PI) with ((1 / 2 - 0) / (1 - 0) * - (PI / 2) + 3 * PI / 2 * 0 + 2 * INR 1 * PI) by (cbn; field).
  symmetry. apply rot2_ext; cbn [rc rs rot_of]; [apply cos_period|apply sin_period].
Qed.

(** A vehicle on a circle of radius 1 with speed 1, sampled every second: the heading stays within
    1/2 and the position within 7/10 of the vehicle. *)
Lemma circle_drives : drives cos sin (fun t => t + PI / 2) 1 1.
Proof.
  intros s t. split; [|right; rewrite Rmult_1_l; f_equal; ring].
  rewrite Rmult_1_l, planar_norm. apply along_norm; [apply Rabs_pos|]. intros u U.
  pose proof (vnorm_sqr u) as Q. rewrite U in Q. destruct u as [ux uy uz]. unfold along in *. cbn [HermiteE3.vx HermiteE3.vy HermiteE3.vz] in *.
  eapply Rle_trans; [apply Rle_abs|]. replace (Rabs (s - t)) with (1 * Rabs (s - t) ^ 1 / INR 1) by (cbn; field).
  replace (ux * (cos s - cos t) + uy * (sin s - sin t) + uz * 0) with (ux * cos s + uy * sin s - (ux * cos t + uy * sin t)) by ring.
  apply (bounded_from (fun z => ux * cos z + uy * sin z - (ux * cos t + uy * sin t)) (fun z => uy * cos z + (- ux) * sin z) t s 1 0).
  - intros z _. auto_derive; [exact I|ring].
  - ring.
  - intros z _. rewrite pow_O, Rmult_1_r. apply wave_bound; [lra|]. pose proof (Rle_0_sqr uz) as Z. unfold Rsqr in Z. lra.
Qed.

Example C123_example : exists g' (c' : se2_curve) ks,
  slerp_fit 0 (Slerp mgr_empty policy_default) [2; 0; 1] (map (vehicle cos sin (fun t => t + PI / 2)) [2; 0; 1]) [] = Ok (g', c', ks) /\
  forall t, 0 <= t <= 2 -> exists P, se2_at c' t = Ok P /\ near cos sin (fun t => t + PI / 2) (7 / 10) (1 / 2) t P.
Proof.
  pose proof PI2_1.
  destruct (C123_fit cos sin (fun t => t + PI / 2) 1 1 1 0 0 ltac:(lra) ltac:(lra) ltac:(lra) ltac:(lra) circle_drives ltac:(lra)
    0%N (Slerp mgr_empty policy_default) [2; 0; 1] (map (vehicle cos sin (fun t => t + PI / 2)) [2; 0; 1]) [])
    as (g' & c' & ks & E & Hf); [reflexivity|discriminate|reflexivity| | |].
  - intros t P [X|[X|[X|[]]]]; injection X as <- <-; apply vehicle_near.
  - intros a b t Ha Hb Ht. destruct (Rle_dec t 1) as [C|C].
    + exists 0, 1. split; [now right; left|]. split; [now right; right; left|].
      destruct Ha as [<-|[<-|[<-|[]]]]; lra.
    + exists 1, 2. split; [now right; right; left|]. split; [now left|].
      destruct Hb as [<-|[<-|[<-|[]]]]; lra.
  - exists g', c', ks. split; [exact E|]. intros t Ht. destruct (Hf t) as (P & EP & a & Rp & Ha & Hp).
    + exists 0, 2. simpl. auto.
    + exists P. split; [exact EP|]. exists a. split; [exact Rp|]. split; lra.
Qed.
