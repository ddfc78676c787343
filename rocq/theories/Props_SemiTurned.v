(** * C125: how closely the semi-discrete curve follows the rotation of the body it was sampled from *)

From Coquelicot Require Import Coquelicot.
From Coq Require Import List Reals Lra Lia Bool Arith NArith ZArith.
From Verif Require Import Base TimeOrder TimeInst KeyGen Manager ManagerSpec ManagerProofs ManagerProofs2
  ManagerProofs3 Num Sampling SamplingSpec SamplingProofs HermiteE3 HermiteSpec HermiteE3Proofs Quat QuatSpec QuatProofs QuatLog
  QuatDist Props_Speed Props_Sampled
  Discrete DiscreteSpec DiscreteProofs Props_Manager Props_Discrete Props_Slerp2 Props_Piecewise Se3 Props_Se3 Props_DiscreteSampled Props_Vehicle
  Props_SemiSampled.
Import ListNotations.
Local Open Scope R_scope.

Local Notation se3_curve := (@slerp_curve R pose3).
Local Notation se3_at := (semi_evaluate se3_exp se3_log se3_scale).
Local Notation rp_at := (semi_evaluate rp_exp rp_log se3_scale).

(** Not in the source: the angle between two rotations, at most PI (see [apart_angle]). *)
Definition apart (a b : rot3) : R := Props_Speed.angle (r3 a) (r3 b).

Lemma apart_triangle : triangle apart.
Proof. intros a b c. apply angle_triangle; apply r3_unit. Qed.
Lemma apart_sym a b : apart a b = apart b a.
Proof. apply angle_sym. Qed.

Lemma same_half p q : same_rotation p q -> half p = half q.
Proof. intros [->| ->]; [reflexivity|apply half_neg]. Qed.

(** It is the angle of the rotation that leads from one to the other. *)
Lemma apart_angle a b : apart a b = Se3.angle (rot3_mul (rot3_inv a) b).
Proof.
  rewrite angle_acos. unfold apart. rewrite angle_half. pose proof (front_real (rot3_mul (rot3_inv a) b)) as F.
  f_equal. replace (acos (qw (r3 (rot3_mul (rot3_inv a) b)))) with (half (r3 (rot3_mul (rot3_inv a) b)))
    by (unfold half; rewrite Rabs_pos_eq by lra; reflexivity).
  symmetry. apply same_half. cbn [rot3_mul rot3_inv rot3_of r3].
  destruct (upright_same (qmul (upright (qconj (r3 a))) (r3 b))) as [->| ->];
  destruct (upright_same (qconj (r3 a))) as [->| ->]; rewrite ?qmul_neg_l, ?qneg_neg; [left|right|right|left]; reflexivity.
Qed.

Lemma apart_exp a v f : apart (rot3_mul a (so3_exp v)) f = 2 * half (qmul (qconj (qexp v)) (qmul (qconj (r3 a)) (r3 f))).
Proof.
  unfold apart. rewrite angle_half. f_equal. apply same_half. cbn [rot3_mul so3_exp rot3_of r3].
  assert (N : forall q : quat R, qconj (qneg q) = qneg (qconj q)) by qring.
  pose proof qconj_mul as M.
  rewrite <- (qmul_assoc (qconj (qexp v))), <- M.
  destruct (upright_same (qmul (r3 a) (upright (qexp v)))) as [->| ->];
  destruct (upright_same (qexp v)) as [->| ->]; rewrite ?N, ?qmul_neg_r, ?N, ?qmul_neg_l, ?qneg_neg; [left|right|right|left]; reflexivity.
Qed.

(** ** Interpolation on a great circle *)

Lemma sin_concave k x : 0 <= k <= 1 -> 0 <= x <= PI -> k * sin x <= sin (k * x).
Proof.
  intros Hk Hx. destruct (Req_dec x 0) as [->|N]; [rewrite Rmult_0_r, sin_0; lra|].
  destruct (MVT_cor2 (fun z => sin (k * z) - k * sin z) (fun z => k * cos (k * z) - k * cos z) 0 x ltac:(lra)) as (c & E & Hc).
  - intros z _. apply is_derive_Reals. auto_derive; [exact I|ring].
  - rewrite !Rmult_0_r, sin_0 in E.
    assert (C : cos c <= cos (k * c)).
    { pose proof (Rmult_le_compat_r c k 1 ltac:(lra) ltac:(lra)). pose proof (Rmult_le_pos k c ltac:(lra) ltac:(lra)). apply cos_decr_1; lra. }
    pose proof (Rmult_le_compat_l k _ _ ltac:(lra) C) as K. pose proof (Rmult_le_compat_r x 0 (k * cos (k * c) - k * cos c) ltac:(lra) ltac:(lra)). lra.
Qed.

Lemma pull m x u : 0 <= m <= PI / 2 -> 0 <= x <= u * m -> 0 <= u <= 1 -> cos m * sin x <= u * (sin m * cos x).
Proof.
  intros Hm Hx Hu. pose proof PI_RGT_0.
  assert (Um : u * m <= m) by (pose proof (Rmult_le_compat_r m u 1 ltac:(lra) ltac:(lra)); lra).
  assert (Pm : 0 <= sin m) by (apply sin_ge_0; lra). assert (Px : 0 <= cos x) by (apply cos_ge_0; lra).
  pose proof (Rmult_le_pos _ _ Pm Px) as P.
  destruct (Req_dec m 0) as [->|N].
  { assert (x = 0) by lra. subst x. rewrite sin_0. lra. }
  set (k := x / m). assert (Ek : x = k * m) by (unfold k; field; exact N).
  assert (Hk : 0 <= k <= u) by (rewrite Ek in Hx; split; apply (Rmult_le_reg_r m); lra).
  pose proof (sin_concave (1 - k) m ltac:(lra) ltac:(lra)) as C.
  replace ((1 - k) * m) with (m - x) in C by lra. rewrite sin_minus in C.
  pose proof (COS_bound x) as [_ B].
  assert (K : (1 - k) * (sin m * cos x) <= (1 - k) * sin m).
  { apply Rmult_le_compat_l; [lra|]. rewrite <- (Rmult_1_r (sin m)) at 2. apply Rmult_le_compat_l; lra. }
  pose proof (Rmult_le_compat_r _ _ _ P (proj2 Hk)). lra.
Qed.

Lemma balance_half s w q : 1 / 2 <= s <= 1 -> 0 <= w -> 0 <= q -> w / 2 + q <= PI / 2 ->
  cos (w / 2 + q) <= (1 - s) * cos (s * w + q) + s * cos ((1 - s) * w + q).
Proof.
  intros Hs Hw Hq Hm. pose proof PI_RGT_0. set (m := w / 2 + q). set (u := s - 1 / 2). set (x := u * w / 2).
  replace (s * w + q) with (m + 2 * x) by (unfold m, x, u; field). replace ((1 - s) * w + q) with (m - 2 * x) by (unfold m, x, u; field).
  assert (Hu : 0 <= u <= 1 / 2) by (unfold u; lra).
  assert (Hx : 0 <= x <= u * m).
  { pose proof (Rmult_le_pos u w ltac:(lra) Hw). pose proof (Rmult_le_pos u q ltac:(lra) Hq). unfold x, m. lra. }
  assert (Um : u * m <= 1 / 2 * m) by (apply Rmult_le_compat_r; unfold m; lra).
  assert (Pm : 0 <= sin m) by (apply sin_ge_0; unfold m; lra).
  assert (Sx : 0 <= sin x) by (apply sin_ge_0; fold m in Hm; lra). assert (Cx : 0 <= cos x) by (apply cos_ge_0; fold m in Hm; lra).
  pose proof (pull m x u ltac:(unfold m; unfold m in Hm; lra) Hx ltac:(lra)) as P.
  pose proof (Rmult_le_compat_r (2 * sin x) _ _ ltac:(lra) P) as P2.
  pose proof (Rmult_le_pos u _ ltac:(lra) (Rmult_le_pos _ _ Pm (Rmult_le_pos _ _ Sx Cx))) as P3.
  rewrite cos_plus, cos_minus, sin_2a, cos_2a_sin. replace (1 - s) with (1 / 2 - u) by (unfold u; lra). replace s with (1 / 2 + u) by (unfold u; lra).
  lra.
Qed.

Lemma balance s w q : 0 <= s <= 1 -> 0 <= w -> 0 <= q -> w / 2 + q <= PI / 2 ->
  cos (w / 2 + q) <= (1 - s) * cos (s * w + q) + s * cos ((1 - s) * w + q).
Proof.
  intros Hs Hw Hq Hm. destruct (Rle_lt_dec (1 / 2) s) as [L|L]; [apply balance_half; auto; lra|].
  pose proof (balance_half (1 - s) w q ltac:(lra) Hw Hq Hm) as B. replace (1 - (1 - s)) with s in B by ring. lra.
Qed.

(** A point on the arc from one end to the other, seen from outside. *)
Lemma on_arc c0 c1 th s al be : 0 <= th <= PI / 2 -> 0 <= s <= 1 -> 0 <= al -> 0 <= be -> al <= c0 -> be <= c0 * cos th + c1 * sin th ->
  (1 - s) * al + s * be <= c0 * cos (s * th) + c1 * sin (s * th).
Proof.
  intros Ht Hs Pa Pb Ha Hb. pose proof PI_RGT_0.
  destruct (Req_dec th 0) as [->|N].
  { rewrite Rmult_0_r, sin_0, cos_0 in *. pose proof (Rmult_le_compat_l (1 - s) _ _ ltac:(lra) Ha). pose proof (Rmult_le_compat_l s _ _ ltac:(lra) Hb). lra. }
  assert (P : 0 < sin th) by (apply sin_gt_0; lra).
  apply (Rmult_le_reg_l (sin th)); [exact P|].
  replace (sin th * (c0 * cos (s * th) + c1 * sin (s * th)))
    with (sin ((1 - s) * th) * c0 + sin (s * th) * (c0 * cos th + c1 * sin th))
    by (replace ((1 - s) * th) with (th - s * th) by ring; rewrite sin_minus; ring).
  pose proof (sin_concave (1 - s) th ltac:(lra) ltac:(lra)) as S1. pose proof (sin_concave s th ltac:(lra) ltac:(lra)) as S2.
  pose proof (Rmult_le_pos (1 - s) _ ltac:(lra) (Rlt_le _ _ P)) as Q1. pose proof (Rmult_le_pos s _ ltac:(lra) (Rlt_le _ _ P)) as Q2.
  pose proof (Rmult_le_compat _ _ _ _ Q1 Pa S1 Ha) as T1. pose proof (Rmult_le_compat _ _ _ _ Q2 Pb S2 Hb) as T2. lra.
Qed.

(** If two cosines are reached up to the sign, and the three angles do not add up to half a circle, the signs agree. *)
Lemma signs_agree c0 c1 th al be : 0 <= th -> 0 <= al -> 0 <= be -> al + be + th < PI -> c0 * c0 + c1 * c1 <= 1 -> cos al <= c0 ->
  - cos be < c0 * cos th + c1 * sin th.
Proof.
  intros Ht Pa Pb Hsum Hc Ha. pose proof PI_RGT_0.
  assert (B0 : -1 <= c0 <= 1) by nra.
  set (g := acos c0). pose proof (acos_bound c0) as Bg. fold g in Bg. assert (Eg : cos g = c0) by (apply cos_acos; lra).
  assert (Hg : g <= al) by (apply acos_below; lra).
  assert (Sg : 0 <= sin g) by (apply sin_ge_0; lra). assert (St : 0 <= sin th) by (apply sin_ge_0; lra).
  assert (Hc1 : - sin g <= c1).
  { pose proof (sin2_cos2 g) as Q. unfold Rsqr in Q. rewrite Eg in Q.
    assert (- c1 <= sin g) by (apply le_by_squares; [exact Sg|lra]). lra. }
  pose proof (Rmult_le_compat_r _ _ _ St Hc1) as M.
  assert (D : cos (PI - be) < cos (g + th)) by (apply cos_decreasing_1; lra).
  rewrite cos_plus, Eg in D. replace (cos (PI - be)) with (- cos be) in D; [lra|].
  rewrite cos_minus, cos_PI, sin_PI. lra.
Qed.

(** Between two rotations near a third one. *)
Lemma slerp_near (a f : rot3) w s al be m :
  vnorm w <= PI -> 0 <= s <= 1 -> 0 <= al <= PI / 2 -> 0 <= be <= PI / 2 -> al + be + vnorm w / 2 < PI -> 0 <= m <= PI ->
  apart a f <= 2 * al -> apart (rot3_mul a (so3_exp w)) f <= 2 * be ->
  cos m <= (1 - s) * cos al + s * cos be -> apart (rot3_mul a (so3_exp (vscale s w))) f <= 2 * m.
Proof.
  intros Hw Hs Hal Hbe Hsum Hm Ha Hb Hmid. pose proof PI_RGT_0.
  destruct (qexp_line w) as (th & u & _ & U & Eth & Eexp). pose proof (vnorm_pos w) as Pw.
  set (g := qmul (qconj (r3 a)) (r3 f)). assert (Ug : unit_quat g) by (apply unit_mul; [apply unit_conj|]; apply r3_unit).
  set (c0 := qw g). set (c1 := vx u * qx g + vy u * qy g + vz u * qz g).
  assert (W : forall x, qw (qmul (qconj (qexp (vscale x w))) g) = c0 * cos (x * th) + c1 * sin (x * th)).
  { intros x. rewrite Eexp. unfold c0, c1. destruct g. cbn. numR. ring. }
  assert (Bes : c0 * c0 + c1 * c1 <= 1).
  { unfold unit_quat in Ug. fold c0 in Ug. pose proof (Rle_0_sqr (vx u * qy g - vy u * qx g)) as N1. pose proof (Rle_0_sqr (vy u * qz g - vz u * qy g)) as N2.
    pose proof (Rle_0_sqr (vz u * qx g - vx u * qz g)) as N3. unfold Rsqr in N1, N2, N3.
    assert (c1 * c1 <= (vx u * vx u + vy u * vy u + vz u * vz u) * (qx g * qx g + qy g * qy g + qz g * qz g)) by (unfold c1; lra).
    rewrite U in H0. lra. }
  rewrite apart_exp. fold g.
  assert (Ha' : acos (Rabs c0) <= al) by (unfold apart in Ha; rewrite angle_half in Ha; unfold half in Ha; fold g c0 in Ha; lra).
  assert (Hb' : acos (Rabs (c0 * cos th + c1 * sin th)) <= be).
  { rewrite apart_exp in Hb. fold g in Hb. unfold half in Hb. pose proof (W 1) as W1. rewrite vscale_1, Rmult_1_l in W1. rewrite W1 in Hb. lra. }
  assert (Bn : forall x, Rabs (c0 * cos x + c1 * sin x) <= 1) by (intros x; apply wave_bound; lra).
  assert (B0 : Rabs c0 <= 1) by (pose proof (Bn 0) as B; rewrite cos_0, sin_0 in B; replace (c0 * 1 + c1 * 0) with c0 in B by ring; exact B).
  assert (Low : forall z y, 0 <= y <= PI / 2 -> Rabs z <= 1 -> acos (Rabs z) <= y -> cos y <= Rabs z).
  { intros z y Hy Hz Hac. pose proof (Rabs_pos z). pose proof (acos_bound (Rabs z)).
    rewrite <- (cos_acos (Rabs z)) by lra. apply cos_decr_1; lra. }
  apply Low in Ha'; [|exact Hal|exact B0]. apply Low in Hb'; [|exact Hbe|apply Bn].
  assert (Ca : 0 <= cos al) by (apply cos_ge_0; lra). assert (Cb : 0 <= cos be) by (apply cos_ge_0; lra).
  unfold half. rewrite W. apply Rmult_le_compat_l; [lra|].
  apply acos_below; [pose proof (Rabs_pos (c0 * cos (s * th) + c1 * sin (s * th))); pose proof (Bn (s * th)); lra|exact Hm|].
  eapply Rle_trans; [exact Hmid|]. clear W.
  assert (Pos : forall d0 d1, d0 * d0 + d1 * d1 <= 1 -> 0 <= d0 -> cos al <= d0 -> cos be <= Rabs (d0 * cos th + d1 * sin th) ->
    (1 - s) * cos al + s * cos be <= Rabs (d0 * cos (s * th) + d1 * sin (s * th))).
  { intros d0 d1 Bd Pd Had Hbd. eapply Rle_trans; [|apply Rle_abs]. apply on_arc; try lra.
    pose proof (signs_agree d0 d1 th al be ltac:(lra) ltac:(lra) ltac:(lra) ltac:(lra) Bd Had) as SA.
    destruct (Rle_lt_dec 0 (d0 * cos th + d1 * sin th)) as [L|L]; [rewrite Rabs_pos_eq in Hbd by exact L; exact Hbd|].
    rewrite Rabs_left in Hbd by exact L. lra. }
  destruct (Rle_lt_dec 0 c0) as [L|L].
  - rewrite (Rabs_pos_eq c0) in Ha' by exact L. apply Pos; auto.
  - rewrite (Rabs_left c0) in Ha' by exact L.
    replace (c0 * cos th + c1 * sin th) with (- ((- c0) * cos th + (- c1) * sin th)) in Hb' by ring. rewrite Rabs_Ropp in Hb'.
    replace (c0 * cos (s * th) + c1 * sin (s * th)) with (- ((- c0) * cos (s * th) + (- c1) * sin (s * th))) by ring. rewrite Rabs_Ropp.
    apply Pos; auto; lra.
Qed.

(** ** C125 *)

Section Turning.
Variables (f : R -> rot3) (W h q : R).
Hypothesis HW : 0 <= W.
Hypothesis Hq : 0 <= q.
Hypothesis Hf : paced apart f W.
Hypothesis Hslow : W * h + 2 * q < PI.

Lemma segment_near ta tb t A B : ta < tb -> tb - ta <= h -> ta <= t <= tb -> apart A (f ta) <= q -> apart B (f tb) <= q ->
  apart (rot3_mul A (so3_exp (vscale ((t - ta) / (tb - ta)) (so3_log (rot3_mul (rot3_inv A) B))))) (f t) <= W * (h / 2) + q.
Proof.
  intros Hlt Hh Ht Na Nb. pose proof PI_RGT_0. set (s := (t - ta) / (tb - ta)). set (w := so3_log (rot3_mul (rot3_inv A) B)).
  assert (Et : t - ta = s * (tb - ta)) by (unfold s; field; lra).
  assert (S : 0 <= s <= 1) by (split; apply (Rmult_le_reg_r (tb - ta)); lra).
  set (o := W * (tb - ta) / 2). assert (Po : 0 <= o) by (unfold o; pose proof (Rmult_le_pos W (tb - ta) HW ltac:(lra)); lra).
  assert (Wh : W * (tb - ta) <= W * h) by (apply Rmult_le_compat_l; lra).
  assert (Ew : vnorm w = apart A B) by (symmetry; apply apart_angle).
  assert (EB : rot3_mul A (so3_exp w) = B) by (unfold w; now rewrite so3_exp_log, rot3_assoc, rot3_inv_r, rot3_one_l).
  assert (Da : apart A (f t) <= 2 * (s * o + q / 2)).
  { pose proof (apart_triangle A (f ta) (f t)) as T. pose proof (Hf ta t) as L. rewrite Rabs_minus_sym, Rabs_pos_eq in L by lra. rewrite Et in L. unfold o. lra. }
  assert (Db : apart B (f t) <= 2 * ((1 - s) * o + q / 2)).
  { pose proof (apart_triangle B (f tb) (f t)) as T. pose proof (Hf tb t) as L. rewrite Rabs_pos_eq in L by lra.
    replace (tb - t) with ((1 - s) * (tb - ta)) in L by lra. unfold o. lra. }
  assert (Dw : vnorm w <= 2 * o + 2 * q).
  { rewrite Ew. pose proof (apart_triangle A (f ta) B) as T1. pose proof (apart_triangle (f ta) (f tb) B) as T2. rewrite (apart_sym (f tb) B) in T2.
    pose proof (Hf ta tb) as L. rewrite Rabs_minus_sym, Rabs_pos_eq in L by lra. unfold o. lra. }
  assert (Ho : o <= W * h / 2) by (unfold o; lra).
  assert (S1 : 0 <= s * o) by (apply Rmult_le_pos; lra). assert (S2 : 0 <= (1 - s) * o) by (apply Rmult_le_pos; lra).
  apply Rle_trans with (2 * (o / 2 + q / 2)); [|lra].
  apply (slerp_near A (f t) w s (s * o + q / 2) ((1 - s) * o + q / 2)); auto; try lra.
  - now rewrite EB.
  - apply balance; lra.
Qed.

(** The body turns like [f]; the coefficients are within [q] of it and at most [h] apart. *)
Theorem C125_curve : forall (c : se3_curve) t, consistent (s_mgr c) ->
  (forall t P, In (t, P) (contents (s_mgr c)) -> apart (p3_rot P) (f t) <= q) ->
  covered (map fst (contents (s_mgr c))) h -> in_range (map fst (contents (s_mgr c))) t ->
  (exists P, se3_at c t = Ok P /\ apart (p3_rot P) (f t) <= W * (h / 2) + q) /\
  (exists P, rp_at c t = Ok P /\ apart (p3_rot P) (f t) <= W * (h / 2) + q).
Proof.
  intros c t Hc Hs Hg (a & b & Ia & Ib & Ht).
  apply in_map_iff in Ia as ((a0 & va) & Ea & Ia). apply in_map_iff in Ib as ((b0 & vb) & Eb & Ib). cbn [fst] in *. subst a0 b0.
  assert (Hn : contents (s_mgr c) <> []) by (intros Y; rewrite Y in Ia; destruct Ia).
  pose proof (contents_bounds _ _ _ Hc Ia). pose proof (contents_bounds _ _ _ Hc Ib).
  assert (Ph : 0 <= h).
  { destruct (Hg a b t) as (a' & b' & _ & _ & ? & ?); auto; [now apply (in_map fst) in Ia|now apply (in_map fst) in Ib|lra]. }
  pose proof (Rmult_le_pos _ _ HW Ph) as PW.
  destruct (pw_cases (s_mgr c) t Hc Hn ltac:(lra)) as [(v & Hv)|(u & ta & A & tb & B & w & E & Ht')].
  - pose proof (Hs _ _ Hv). split; exists v; (split; [|lra]).
    + apply C60_at_coefficient; auto. apply se3_exp_log.
    + now apply (C95_componentwise c Hc).
  - assert (Hadj : adjacent (contents (s_mgr c)) (ta, A) (tb, B)) by (now exists u, w).
    assert (IA : In (ta, A) (contents (s_mgr c))) by (rewrite E, in_app_iff; simpl; auto).
    assert (IB : In (tb, B) (contents (s_mgr c))) by (rewrite E, in_app_iff; simpl; auto).
    pose proof (adjacent_close c h ta A tb B Hc Hg Hadj) as Hh.
    pose proof (segment_near ta tb t (p3_rot A) (p3_rot B) ltac:(lra) ltac:(lra) ltac:(lra) (Hs _ _ IA) (Hs _ _ IB)) as N.
    split; eexists.
    + split; [apply (blend_value _ _ _ se3_zero se3_one c u ta A tb B w t Hc E); lra|exact N].
    + split; [apply (blend_value _ _ _ rp_zero rp_one c u ta A tb B w t Hc E); lra|exact N].
Qed.

(** The same for a curve fitted to measured poses, given in any order. *)
Theorem C125_fit : forall g (c : se3_curve) ts Ps out, length ts = length Ps -> ts <> [] -> (g + N.of_nat (length ts) < 2 ^ 64)%N ->
  (forall t P, In (t, P) (combine ts Ps) -> apart (p3_rot P) (f t) <= q) -> covered ts h ->
  exists g' c' ks, slerp_fit g c ts Ps out = Ok (g', c', out ++ ks) /\
    forall t, in_range ts t ->
      (exists P, se3_at c' t = Ok P /\ apart (p3_rot P) (f t) <= W * (h / 2) + q) /\
      (exists P, rp_at c' t = Ok P /\ apart (p3_rot P) (f t) <= W * (h / 2) + q).
Proof.
  intros g c ts vs out Hl Hn Hg Hm Hgap.
  destruct (C75_fit twist3 se3_exp se3_log se3_scale g c ts vs out se3_exp_log Hl Hn Hg) as (g' & c' & ks & E & [Hc' _] & Hi & _).
  exists g', c', ks. split; [exact E|].
  assert (Htimes : forall t, In t (map fst (contents (s_mgr c'))) <-> In t ts).
  { intros t. rewrite in_map_iff. split.
    - intros ((u & v) & <- & Hu). apply Hi, last_value_in in Hu. exact Hu.
    - intros Hx. destruct (in_last_value ts vs t Hl Hx) as (v & Ev). exists (t, v). split; [reflexivity|now apply Hi]. }
  intros t (a & b & Ia & Ib & Hab). apply C125_curve; auto.
  - intros u v Hu. apply Hm. apply Hi in Hu. clear - Hu. revert Hu. induction (combine ts vs) as [|(s & w) l IH]; [discriminate|].
    cbn [last_value]. destruct (last_value l u) as [v'|] eqn:El.
    + intros Y. right. apply IH. exact Y.
    + destruct (teq s u) eqn:Et; [|discriminate]. intros Y. injection Y as <-. left. apply teq_R in Et. congruence.
  - intros a' b' t' Ha' Hb' Ht'. apply Htimes in Ha', Hb'.
    destruct (Hgap a' b' t' Ha' Hb' Ht') as (x & y & Ix & Iy & R1). exists x, y. rewrite !Htimes. auto.
  - exists a, b. rewrite !Htimes. auto.
Qed.

End Turning.

(** ** How good the bounds are *)

(** Not in the source: the rotation about the third axis by the angle [x]. *)
Definition spin (x : R) : rot3 := so3_exp (V3 0 0 x).

Lemma spin_scale s x : vscale s (V3 0 0 x) = V3 0 0 (s * x).
Proof. unfold vscale. cbn. numR. f_equal; ring. Qed.
Lemma spin_add x y : rot3_mul (spin x) (spin y) = spin (x + y).
Proof.
  unfold spin. replace (V3 0 0 x) with (vscale x (V3 0 0 1)) by (rewrite spin_scale; f_equal; ring).
  replace (V3 0 0 y) with (vscale y (V3 0 0 1)) by (rewrite spin_scale; f_equal; ring).
  rewrite so3_exp_add, spin_scale. do 2 f_equal. ring.
Qed.
Lemma spin_zero : spin 0 = rot3_one.
Proof. apply so3_exp_zero. Qed.
Lemma spin_inv x : rot3_inv (spin x) = spin (- x).
Proof.
  transitivity (rot3_mul (rot3_inv (spin x)) (rot3_mul (spin x) (spin (- x)))).
  - rewrite spin_add, Rplus_opp_r, spin_zero, rot3_one_r. reflexivity.
  - rewrite rot3_assoc, rot3_inv_l, rot3_one_l. reflexivity.
Qed.
Lemma spin_norm x : vnorm (V3 0 0 x) = Rabs x.
Proof. unfold vnorm. cbn. rewrite <- sqrt_Rsqr_abs. f_equal. unfold Rsqr. ring. Qed.
Lemma spin_form x : r3 (spin x) = upright (Quat (cos (x / 2)) 0 0 (sin (x / 2))).
Proof.
  unfold spin. cbn [so3_exp rot3_of r3]. f_equal. unfold qexp. rewrite spin_norm. cbn [vx vy vz].
  destruct (Req_EM_T (Rabs x) 0) as [Z|Z].
  - assert (x = 0) by (destruct (Req_dec x 0) as [E|E]; [exact E|now apply Rabs_no_R0 in E]). subst x. rewrite Rabs_R0.
    replace (0 / 2) with 0 by field. rewrite sin_0, !Rmult_0_r. reflexivity.
  - destruct (Rle_lt_dec 0 x) as [L|L].
    + rewrite Rabs_pos_eq in * by exact L. f_equal; field; exact Z.
    + rewrite Rabs_left in * by exact L. replace (- x / 2) with (- (x / 2)) by field. rewrite cos_neg, sin_neg. f_equal; field; lra.
Qed.

Lemma spin_apart x y : apart (spin x) (spin y) = 2 * acos (Rabs (cos ((x - y) / 2))).
Proof.
  assert (E : cos ((x - y) / 2) = cos (x / 2) * cos (y / 2) + sin (x / 2) * sin (y / 2))
    by (replace ((x - y) / 2) with (x / 2 - y / 2) by field; apply cos_minus).
  rewrite E. unfold apart, Props_Speed.angle. f_equal. f_equal. rewrite !spin_form.
  destruct (upright_same (Quat (cos (x / 2)) 0 0 (sin (x / 2)))) as [->| ->];
  destruct (upright_same (Quat (cos (y / 2)) 0 0 (sin (y / 2)))) as [->| ->]; cbn [qneg qw qx qy qz]; numR;
  first [f_equal; ring|rewrite <- Rabs_Ropp; f_equal; ring].
Qed.

Lemma spin_apart_exact x y : Rabs (x - y) <= PI -> apart (spin x) (spin y) = Rabs (x - y).
Proof.
  intros L. rewrite spin_apart. pose proof (Rabs_pos (x - y)) as P.
  replace (cos ((x - y) / 2)) with (cos (Rabs (x - y) / 2)).
  - rewrite Rabs_pos_eq by (apply cos_ge_0; pose proof PI_RGT_0; lra). rewrite acos_cos by (pose proof PI_RGT_0; lra). lra.
  - unfold Rabs. destruct (Rcase_abs (x - y)); [|reflexivity]. replace (- (x - y) / 2) with (- ((x - y) / 2)) by field. apply cos_neg.
Qed.

Lemma spin_apart_le x y : apart (spin x) (spin y) <= Rabs (x - y).
Proof.
  destruct (Rle_lt_dec (Rabs (x - y)) PI) as [L|L]; [right; now apply spin_apart_exact|].
  rewrite apart_angle. pose proof (angle_bounds (rot3_mul (rot3_inv (spin x)) (spin y))). lra.
Qed.

Lemma spin_paced (th : R -> R) W : (forall s t, Rabs (th s - th t) <= W * Rabs (s - t)) -> paced apart (fun t => spin (th t)) W.
Proof. intros H s t. eapply Rle_trans; [apply spin_apart_le|apply H]. Qed.

(** A body that turns forth and back between two samples reaches the bound. *)
Theorem C125_sharp : forall W h, 0 <= W -> 0 < h -> W * h < PI ->
  exists (c : se3_curve) f P, paced apart f W /\ consistent (s_mgr c) /\ map fst (contents (s_mgr c)) = [0; h] /\
    (forall t P, In (t, P) (contents (s_mgr c)) -> p3_rot P = f t) /\
    se3_at c (h / 2) = Ok P /\ apart (p3_rot P) (f (h / 2)) = W * (h / 2).
Proof.
  intros W h HW Hh Hs. pose proof PI_RGT_0. destruct (curve_exists [(0, pose3_one); (h, pose3_one)] policy_default) as (g & c & _ & [Hc _] & Ec & _);
    [apply two_increasing; lra|reflexivity|].
  assert (F0 : forth_back h 0 = 0) by (unfold forth_back; rewrite Rabs_left1 by lra; lra).
  assert (F1 : forth_back h h = 0) by (unfold forth_back; rewrite Rabs_pos_eq by lra; lra).
  assert (F2 : forth_back h (h / 2) = h / 2) by (unfold forth_back; rewrite Rminus_eq_0, Rabs_R0; lra).
  exists c, (fun t => spin (W * forth_back h t)). eexists. split; [|split; [exact Hc|split; [now rewrite Ec|split; [|split]]]].
  - apply spin_paced. intros s t. replace (W * forth_back h s - W * forth_back h t) with (W * (forth_back h s - forth_back h t)) by ring.
    rewrite Rabs_mult, (Rabs_pos_eq W) by exact HW. apply Rmult_le_compat_l; [exact HW|apply forth_back_lipschitz].
  - intros t P Hi. rewrite Ec in Hi. destruct Hi as [Y|[Y|[]]]; injection Y as <- <-; cbn [pose3_one p3_rot]; rewrite ?F0, ?F1, Rmult_0_r, spin_zero; reflexivity.
  - apply (blend_value _ _ _ se3_zero se3_one c [] 0 pose3_one h pose3_one [] (h / 2) Hc Ec); lra.
  - rewrite ginv_l. cbn [gmul gone pose3_GroupOps pose3_mul pose3_one p3_rot se3_exp se3_log se3_scale w3_w].
    rewrite so3_log_one, rot3_one_l. replace (vscale ((h / 2 - 0) / (h - 0)) (V3 0 0 0)) with (V3 0 0 0) by (rewrite spin_scale, Rmult_0_r; reflexivity).
    change (so3_exp (V3 0 0 0)) with (spin 0). rewrite F2.
    assert (PW : 0 <= W * (h / 2)) by (apply Rmult_le_pos; lra).
    rewrite spin_apart_exact; rewrite Rabs_minus_sym, Rminus_0_r, Rabs_pos_eq by exact PW; lra.
Qed.

(** Without the condition on [W * h]: after three quarters of a turn the curve has turned the other way. *)
Theorem C125_fast_refuted : exists (c : se3_curve) f W h t P, paced apart f W /\ consistent (s_mgr c) /\ 0 < h /\ PI < W * h /\
  (forall t P, In (t, P) (contents (s_mgr c)) -> p3_rot P = f t) /\
  covered (map fst (contents (s_mgr c))) h /\ in_range (map fst (contents (s_mgr c))) t /\
  se3_at c t = Ok P /\ apart (p3_rot P) (f t) = PI /\ W * (h / 2) < PI.
Proof.
  pose proof PI_RGT_0. set (f := fun t => spin (3 * PI / 2 * t)).
  destruct (curve_exists [(0, pose3_one); (1, Pose3 (spin (3 * PI / 2)) (V3 0 0 0))] policy_default) as (g & c & _ & [Hc _] & Ec & _);
    [apply two_increasing; lra|reflexivity|].
  assert (Full : spin (3 * PI / 2) = spin (- (PI / 2))).
  { apply rot3_same. rewrite !spin_form. left.
    replace (- (PI / 2) / 2) with (3 * PI / 2 / 2 - PI) by field.
    rewrite cos_minus, sin_minus, cos_PI, sin_PI, !Rmult_0_r, Rplus_0_r, Rminus_0_r.
    set (a := cos (3 * PI / 2 / 2)). set (b := sin (3 * PI / 2 / 2)).
    replace (Quat (a * -1) 0 0 (b * -1)) with (qneg (Quat a 0 0 b)) by (unfold qneg; cbn; numR; f_equal; ring).
    rewrite upright_neg by (unfold unit_quat; cbn; unfold a, b; pose proof (sin2_cos2 (3 * PI / 2 / 2)) as Q; unfold Rsqr in Q; lra).
    reflexivity. }
  exists c, f, (3 * PI / 2), 1, (1 / 2). eexists.
  split; [|split; [exact Hc|split; [lra|split; [lra|split; [|split; [|split; [|split; [|split]]]]]]]].
  - apply spin_paced. intros s t. replace (3 * PI / 2 * s - 3 * PI / 2 * t) with (3 * PI / 2 * (s - t)) by ring.
    rewrite Rabs_mult, (Rabs_pos_eq (3 * PI / 2)) by lra. lra.
  - intros t P Hi. rewrite Ec in Hi. unfold f. destruct Hi as [Y|[Y|[]]]; injection Y as <- <-; cbn [pose3_one p3_rot];
      rewrite ?Rmult_0_r, ?Rmult_1_r, ?spin_zero; reflexivity.
  - rewrite Ec. apply two_covered. lra.
  - rewrite Ec. exists 0, 1. cbn. split; [auto|]. split; [auto|lra].
  - apply (blend_value _ _ _ se3_zero se3_one c [] 0 pose3_one 1 _ [] (1 / 2) Hc Ec); lra.
  - rewrite from_one. cbn [gmul gone pose3_GroupOps pose3_mul pose3_one p3_rot se3_exp se3_log se3_scale w3_w].
    rewrite rot3_one_l, Full. unfold spin at 1. rewrite so3_log_exp by (rewrite spin_norm, Rabs_left; lra).
    rewrite spin_scale. unfold f. change (so3_exp (V3 0 0 ?x)) with (spin x).
    rewrite spin_apart_exact; [rewrite Rabs_left; lra|rewrite Rabs_left; lra].
  - lra.
Qed.

(** A body that turns by one radian per second, sampled every second: the rotation is off by at most 1/2. *)
Example C125_example : exists g' (c' : se3_curve) ks,
  slerp_fit 0 (Slerp mgr_empty policy_default) [2; 0; 1] (map (fun t => Pose3 (spin t) (V3 t 0 0)) [2; 0; 1]) [] = Ok (g', c', ks) /\
  forall t, 0 <= t <= 2 -> exists P, se3_at c' t = Ok P /\ apart (p3_rot P) (spin t) <= 1 / 2.
Proof.
  pose proof PI2_1.
  destruct (C125_fit spin 1 1 0 ltac:(lra) ltac:(lra) (spin_paced (fun t => t) 1 ltac:(intros; lra)) ltac:(lra)
    0%N (Slerp mgr_empty policy_default) [2; 0; 1] (map (fun t => Pose3 (spin t) (V3 t 0 0)) [2; 0; 1]) [])
    as (g' & c' & ks & E & Hf); [reflexivity|discriminate|reflexivity| | |].
  - intros t P [X|[X|[X|[]]]]; injection X as <- <-; cbn [p3_rot]; rewrite spin_apart_exact; rewrite Rminus_eq_0, Rabs_R0; lra.
  - intros a b t Ha Hb Ht. cbn in Ha, Hb. destruct (Rle_lt_dec t 1) as [L|L].
    + exists 0, 1. cbn. split; [auto|]. split; [auto|]. intuition lra.
    + exists 1, 2. cbn. split; [auto|]. split; [auto|]. intuition lra.
  - exists g', c', ks. split; [exact E|]. intros t Ht. destruct (Hf t) as ((P & EP & NP) & _).
    + exists 0, 2. cbn. split; [auto|]. split; [auto|lra].
    + exists P. split; [exact EP|]. lra.
Qed.
