(** * C124: how closely the semi-discrete curve of poses follows the body it was sampled from *)

From Coquelicot Require Import Coquelicot.
From Coq Require Import List Reals Lra Lia Bool Arith NArith ZArith.
From Verif Require Import Base TimeOrder TimeInst KeyGen Manager ManagerSpec ManagerProofs ManagerProofs2
  ManagerProofs3 Num Sampling SamplingSpec SamplingProofs HermiteE3 HermiteSpec HermiteE3Proofs Quat QuatSpec QuatProofs QuatLog
  QuatDist Props_Speed Props_Sampled
  Discrete DiscreteSpec DiscreteProofs Props_Manager Props_Discrete Props_Slerp2 Props_Piecewise Se3 Props_Se3 Props_DiscreteSampled Props_Vehicle.
Import ListNotations.
Local Open Scope R_scope.

Local Notation se3_curve := (@slerp_curve R pose3).
Local Notation se3_at := (semi_evaluate se3_exp se3_log se3_scale).
Local Notation rp_at := (semi_evaluate rp_exp rp_log se3_scale).
Local Notation vadd := HermiteE3.vadd.
Local Notation vsub := HermiteE3.vsub.

(** Not in the source: the distance of two points. *)
Definition between (a b : vec3 R) : R := vnorm (vsub a b).

(** Not in the source: the angle by which one has to turn from one pose to the other. *)
Definition turn_between (A B : pose3) : R := angle (rot3_mul (rot3_inv (p3_rot A)) (p3_rot B)).

Lemma between_triangle : triangle between.
Proof.
  intros x y z. unfold between. eapply Rle_trans; [|apply vnorm_add]. right. f_equal.
  unfold HermiteE3.vadd, HermiteE3.vsub. destruct x, y, z. cbn. numR. f_equal; ring.
Qed.
Lemma between_sym x y : between x y = between y x.
Proof. unfold between, vnorm. f_equal. destruct x, y. cbn. numR. ring. Qed.

(** ** A screw motion and its chord *)

Lemma gram u v w : dot u u = 1 ->
  (dot w v - dot u v * dot w u) * (dot w v - dot u v * dot w u) + dot w (cross u v) * dot w (cross u v) =
  (dot w w - dot w u * dot w u) * (dot v v - dot u v * dot u v).
Proof.
  intros U.
  assert (G : dot w (cross u v) * dot w (cross u v) =
    dot w w * (dot u u * dot v v - dot u v * dot u v) - dot w u * (dot w u * dot v v - dot u v * dot w v)
    + dot w v * (dot w u * dot u v - dot u u * dot w v)).
  { unfold dot, cross. destruct u, v, w. cbn. ring. }
  rewrite G, U. ring.
Qed.

Lemma add_sub (v q : vec3 R) : vsub (vadd v q) q = v.
Proof. unfold HermiteE3.vadd, HermiteE3.vsub. destruct v, q. cbn. numR. f_equal; ring. Qed.
Lemma along_add u a b : along u (vadd a b) = along u a + along u b.
Proof. unfold along. destruct a, b. cbn. numR. ring. Qed.

Lemma screw_chord u q d h s y : dot u u = 1 -> 0 <= d <= PI -> 0 <= s <= 1 ->
  between (screw u q d h s y) (vadd (vscale (1 - s) y) (vscale s (screw u q d h 1 y))) <= between (screw u q d h 1 y) y * d / 5.
Proof.
  intros U Hd Hs.
  assert (Ey : exists v, y = vadd v q).
  { exists (vsub y q). unfold HermiteE3.vadd, HermiteE3.vsub. destruct y, q. cbn. numR. f_equal; ring. }
  destruct Ey as (v & ->).
  assert (Q : 0 <= dot v v - dot u v * dot u v).
  { replace (dot v v - dot u v * dot u v) with (dot (cross u v) (cross u v)).
    - unfold dot. pose proof (Rle_0_sqr (vx (cross u v))). pose proof (Rle_0_sqr (vy (cross u v))). pose proof (Rle_0_sqr (vz (cross u v))).
      unfold Rsqr in *. lra.
    - transitivity (dot u u * dot v v - dot u v * dot u v); [|rewrite U; ring]. unfold dot, cross. destruct u, v. cbn. ring. }
  set (r := sqrt (dot v v - dot u v * dot u v)). assert (Pr : 0 <= r) by apply sqrt_pos.
  assert (Sr : r * r = dot v v - dot u v * dot u v) by (now apply sqrt_sqrt).
  assert (C : 2 * sin (d / 2) * r <= between (screw u q d h 1 (vadd v q)) (vadd v q)).
  { apply le_by_squares; [apply vnorm_pos|]. unfold between. rewrite vnorm_sqr.
    replace (along (vsub (screw u q d h 1 (vadd v q)) (vadd v q)) (vsub (screw u q d h 1 (vadd v q)) (vadd v q)))
      with (h * h * dot u u + (dot v v - dot u v * dot u v) * ((cos d - 1) * (cos d - 1) + sin d * sin d)
            + (dot u u - 1) * (sin d * sin d * dot v v + (1 - cos d) * (1 - cos d) * dot u v * dot u v + 2 * h * (1 - cos d) * dot u v)).
    2: { unfold screw, about.
         unfold along, dot, cross, HermiteE3.vadd, HermiteE3.vsub, vscale. destruct u, v, q. cbn. numR. rewrite !Rmult_1_l. ring. }
    rewrite U, <- Sr. pose proof (Se2.cos_sin_unit d) as Ud. pose proof (cos_2a_sin (d / 2)) as Cd. replace (2 * (d / 2)) with d in Cd by field.
    pose proof (Rle_0_sqr h) as Ph. unfold Rsqr in Ph.
    assert (K : (cos d - 1) * (cos d - 1) + sin d * sin d = 4 * (sin (d / 2) * sin (d / 2))).
    { transitivity (cos d * cos d + sin d * sin d + 1 - 2 * cos d); [ring|]. rewrite Ud. lra. }
    rewrite K. apply Rle_trans with (r * r * (4 * (sin (d / 2) * sin (d / 2)))); [right; ring|lra]. }
  eapply Rle_trans; [|exact (radius_length r d _ Pr Hd C)].
  unfold between. apply along_norm.
  { pose proof (Rle_0_sqr d) as Pd. unfold Rsqr in Pd. pose proof (Rmult_le_pos _ _ Pr Pd). lra. }
  intros w W. pose proof (vnorm_sqr w) as Qw. rewrite W in Qw. change (along w w) with (dot w w) in Qw.
  pose proof (gram u v w U) as G. set (a := dot w v - dot u v * dot w u) in *. set (b := dot w (cross u v)) in *.
  assert (H : a * a + b * b <= r * r).
  { rewrite G, <- Sr, <- Qw. pose proof (Rle_0_sqr (dot w u)) as Z. unfold Rsqr in Z. pose proof (Rle_0_sqr r) as Z'. unfold Rsqr in Z'.
    pose proof (Rmult_le_pos _ _ Z Z'). lra. }
  pose proof (wave_chord a b r d s Pr H Hs) as WC.
  replace (along w (vsub (screw u q d h s (vadd v q)) (vadd (vscale (1 - s) (vadd v q)) (vscale s (screw u q d h 1 (vadd v q))))))
    with (a * cos (s * d) + b * sin (s * d) - ((1 - s) * a + s * (a * cos d + b * sin d))); [exact WC|].
  unfold a, b, screw, about. rewrite !add_sub, !along_sub, !along_add, !along_scale, !along_add, !along_scale.
  change (along w v) with (dot w v). change (along w u) with (dot w u). change (along w (cross u v)) with (dot w (cross u v)).
  rewrite !Rmult_1_l. ring.
Qed.

Lemma adjacent_close (c : se3_curve) h ta A tb B : consistent (s_mgr c) -> covered (map fst (contents (s_mgr c))) h ->
  adjacent (contents (s_mgr c)) (ta, A) (tb, B) -> 0 < tb - ta <= h.
Proof.
  intros Hc Hg (u & w & E). pose proof (consistent_incr _ _ _ _ _ _ _ Hc E) as Hlt.
  assert (IA : In (ta, A) (contents (s_mgr c))) by (rewrite E, in_app_iff; simpl; auto).
  assert (IB : In (tb, B) (contents (s_mgr c))) by (rewrite E, in_app_iff; simpl; auto).
  destruct (Hg ta tb ((ta + tb) / 2)) as (a' & b' & Ja & Jb & Hab & Hh); [now apply (in_map fst) in IA|now apply (in_map fst) in IB|lra|].
  apply in_map_iff in Ja as ((? & v1) & <- & Ja). apply in_map_iff in Jb as ((? & v2) & <- & Jb). cbn [fst] in *.
  destruct (split_bounds _ _ _ _ _ _ _ _ _ Hc E Ja) as [?|[[? _]|[[? _]|?]]];
  destruct (split_bounds _ _ _ _ _ _ _ _ _ Hc E Jb) as [?|[[? _]|[[? _]|?]]]; lra.
Qed.

(** C95, with the angle. *)
Lemma screw_angle (c : se3_curve) ta A tb B : consistent (s_mgr c) -> adjacent (contents (s_mgr c)) (ta, A) (tb, B) ->
  ta < tb /\ exists u q h, dot u u = 1 /\
  forall t, ta <= t <= tb -> exists P, se3_at c t = Ok P /\
    forall x, moved P x = screw u q (turn_between A B) h ((t - ta) / (tb - ta)) (moved A x).
Proof.
  intros Hc (u0 & w & E). split; [exact (consistent_incr _ _ _ _ _ _ _ Hc E)|].
  destruct (twist_screw (se3_log (gmul (ginv A) B))) as (u & q & d & h & U & Ed & Ex).
  assert (d = turn_between A B) by exact Ed. subst d.
  exists (turned (p3_rot A) u), (moved A q), h. split; [now rewrite turned_dot|]. intros t Ht. eexists.
  split; [apply (blend_value _ _ _ se3_zero se3_one c u0 ta A tb B w t Hc E Ht)|].
  intros x. rewrite moved_mul, Ex, screw_exp by exact U. apply screw_moved.
Qed.

(** ** C124 *)

Section Body.
Variables (X : vec3 R) (f : R -> vec3 R) (V h e D : R).
Hypothesis HV : 0 <= V.
Hypothesis He : 0 <= e.
Hypothesis HD : 0 <= D.
Hypothesis Hf : paced between f V.

Lemma chord_near ta tb t a b : ta < tb -> tb - ta <= h -> ta <= t <= tb -> between a (f ta) <= e -> between b (f tb) <= e ->
  let s := (t - ta) / (tb - ta) in between (vadd (vscale (1 - s) a) (vscale s b)) (f t) <= V * (h / 2) + e.
Proof.
  intros Hlt Hh Ht Na Nb s.
  assert (S : 0 <= s <= 1).
  { assert (Et : t - ta = s * (tb - ta)) by (unfold s; field; lra). split; apply (Rmult_le_reg_r (tb - ta)); lra. }
  pose proof (between_triangle a (f ta) (f t)) as Ta. pose proof (between_triangle b (f tb) (f t)) as Tb.
  assert (Z : between (vadd (vscale (1 - s) a) (vscale s b)) (f t) <= (1 - s) * between a (f t) + s * between b (f t)).
  { unfold between. replace (vsub (vadd (vscale (1 - s) a) (vscale s b)) (f t))
      with (vadd (vscale (1 - s) (vsub a (f t))) (vscale s (vsub b (f t)))).
    - eapply Rle_trans; [apply vnorm_add|]. rewrite !vnorm_scale, (Rabs_pos_eq (1 - s)), (Rabs_pos_eq s) by lra. lra.
    - unfold HermiteE3.vadd, HermiteE3.vsub, vscale. destruct a, b, (f t). cbn. numR. f_equal; ring. }
  pose proof (between_lipschitz V ta tb t _ _ Ht Hlt HV (Hf ta t) (Hf tb t)) as L. cbv zeta in L. fold s in L.
  assert (Vh : V * (tb - ta) <= V * h) by (apply Rmult_le_compat_l; lra).
  pose proof (Rmult_le_compat_l (1 - s) _ _ ltac:(lra) Ta). pose proof (Rmult_le_compat_l s _ _ ltac:(lra) Tb).
  pose proof (Rmult_le_compat_l (1 - s) _ _ ltac:(lra) Na). pose proof (Rmult_le_compat_l s _ _ ltac:(lra) Nb). lra.
Qed.

Lemma ends_near ta tb a b : ta < tb -> tb - ta <= h -> between a (f ta) <= e -> between b (f tb) <= e -> between b a <= V * h + 2 * e.
Proof.
  intros Hlt Hh Na Nb. pose proof (between_triangle b (f tb) a). pose proof (between_triangle (f tb) (f ta) a).
  rewrite (between_sym (f ta) a) in *. pose proof (Hf tb ta) as F. rewrite Rabs_pos_eq in F by lra.
  assert (Vh : V * (tb - ta) <= V * h) by (apply Rmult_le_compat_l; lra). lra.
Qed.

(** The point [X] of the body moves along [f]; the coefficients of the curve take it within [e] of there,
    are at most [h] apart and turn by at most [D] from one to the next. *)
Theorem C124_curve : forall (c : se3_curve) t, consistent (s_mgr c) ->
  (forall t P, In (t, P) (contents (s_mgr c)) -> between (moved P X) (f t) <= e) ->
  (forall ta A tb B, adjacent (contents (s_mgr c)) (ta, A) (tb, B) -> turn_between A B <= D) ->
  covered (map fst (contents (s_mgr c))) h -> in_range (map fst (contents (s_mgr c))) t ->
  exists P, se3_at c t = Ok P /\ between (moved P X) (f t) <= V * (h / 2) + e + (V * h + 2 * e) * D / 5.
Proof.
  intros c t Hc Hs Hturn Hg (a & b & Ia & Ib & Ht).
  apply in_map_iff in Ia as ((a0 & va) & Ea & Ia). apply in_map_iff in Ib as ((b0 & vb) & Eb & Ib). cbn [fst] in *. subst a0 b0.
  assert (Hn : contents (s_mgr c) <> []) by (intros Y; rewrite Y in Ia; destruct Ia).
  pose proof (contents_bounds _ _ _ Hc Ia). pose proof (contents_bounds _ _ _ Hc Ib).
  assert (Ph : 0 <= h).
  { destruct (Hg a b t) as (a' & b' & _ & _ & ? & ?); auto; [now apply (in_map fst) in Ia|now apply (in_map fst) in Ib|lra]. }
  pose proof (Rmult_le_pos _ _ HV Ph) as PV.
  destruct (pw_cases (s_mgr c) t Hc Hn ltac:(lra)) as [(v & Hv)|(u & ta & A & tb & B & w & E & Ht')].
  - exists v. split; [apply C60_at_coefficient; auto; apply se3_exp_log|]. pose proof (Hs _ _ Hv).
    assert (0 <= (V * h + 2 * e) * D) by (apply Rmult_le_pos; lra). lra.
  - assert (Hadj : adjacent (contents (s_mgr c)) (ta, A) (tb, B)) by (now exists u, w).
    assert (IA : In (ta, A) (contents (s_mgr c))) by (rewrite E, in_app_iff; simpl; auto).
    assert (IB : In (tb, B) (contents (s_mgr c))) by (rewrite E, in_app_iff; simpl; auto).
    assert (Hh : tb - ta <= h).
    { now apply (adjacent_close c h ta A tb B). }
    destruct (screw_angle c ta A tb B Hc Hadj) as (Hlt & ux & q & k & U & Hscrew).
    destruct (Hscrew t ltac:(lra)) as (P & EP & MP). exists P. split; [exact EP|].
    destruct (Hscrew tb ltac:(lra)) as (B' & EB & MB).
    assert (HB : se3_at c tb = Ok B) by (apply C60_at_coefficient; [apply se3_exp_log|exact Hc|exact IB]).
    assert (B' = B) by congruence. subst B'.
    replace ((tb - ta) / (tb - ta)) with 1 in MB by (field; lra).
    set (s := (t - ta) / (tb - ta)) in *.
    assert (S : 0 <= s <= 1).
    { assert (Et : t - ta = s * (tb - ta)) by (unfold s; field; lra). split; apply (Rmult_le_reg_r (tb - ta)); lra. }
    pose proof (angle_bounds (rot3_mul (rot3_inv (p3_rot A)) (p3_rot B))) as AB. fold (turn_between A B) in AB.
    pose proof (screw_chord ux q (turn_between A B) k s (moved A X) U AB S) as SC. rewrite <- MP, <- MB in SC.
    pose proof (chord_near ta tb t (moved A X) (moved B X) Hlt Hh ltac:(lra) (Hs _ _ IA) (Hs _ _ IB)) as CN. cbv zeta in CN. fold s in CN.
    pose proof (ends_near ta tb (moved A X) (moved B X) Hlt Hh (Hs _ _ IA) (Hs _ _ IB)) as EN.
    pose proof (Hturn _ _ _ _ Hadj) as HT.
    assert (K : between (moved B X) (moved A X) * turn_between A B <= (V * h + 2 * e) * D).
    { apply Rmult_le_compat; [apply vnorm_pos|lra|exact EN|exact HT]. }
    eapply Rle_trans; [apply between_triangle|]. eapply Rle_trans; [apply Rplus_le_compat; [exact SC|exact CN]|]. lra.
Qed.

(** The same for a curve fitted to measured poses, given in any order. *)
Theorem C124_fit : forall g (c : se3_curve) ts Ps out, length ts = length Ps -> ts <> [] -> (g + N.of_nat (length ts) < 2 ^ 64)%N ->
  (forall t P, In (t, P) (combine ts Ps) -> between (moved P X) (f t) <= e) ->
  (forall s A t B, In (s, A) (combine ts Ps) -> In (t, B) (combine ts Ps) -> 0 < t - s <= h -> turn_between A B <= D) ->
  covered ts h ->
  exists g' c' ks, slerp_fit g c ts Ps out = Ok (g', c', out ++ ks) /\
    forall t, in_range ts t -> exists P, se3_at c' t = Ok P /\
      between (moved P X) (f t) <= V * (h / 2) + e + (V * h + 2 * e) * D / 5.
Proof.
  intros g c ts vs out Hl Hn Hg Hm Ht Hgap.
  destruct (C75_fit twist3 se3_exp se3_log se3_scale g c ts vs out se3_exp_log Hl Hn Hg) as (g' & c' & ks & E & [Hc' _] & Hi & _).
  exists g', c', ks. split; [exact E|].
  assert (Htimes : forall t, In t (map fst (contents (s_mgr c'))) <-> In t ts).
  { intros t. rewrite in_map_iff. split.
    - intros ((u & v) & <- & Hu). apply Hi, last_value_in in Hu. exact Hu.
    - intros Hx. destruct (in_last_value ts vs t Hl Hx) as (v & Ev). exists (t, v). split; [reflexivity|now apply Hi]. }
  assert (Hin : forall u v, In (u, v) (contents (s_mgr c')) -> In (u, v) (combine ts vs)).
  { intros u v Hu. apply Hi in Hu. clear - Hu. revert Hu. induction (combine ts vs) as [|(s & w) l IH]; [discriminate|].
    cbn [last_value]. destruct (last_value l u) as [v'|] eqn:El.
    - intros Y. right. apply IH. exact Y.
    - destruct (teq s u) eqn:Et; [|discriminate]. intros Y. injection Y as <-. left. apply teq_R in Et. congruence. }
  assert (Hg' : covered (map fst (contents (s_mgr c'))) h).
  { intros a' b' t' Ha' Hb' Ht'. apply Htimes in Ha', Hb'.
    destruct (Hgap a' b' t' Ha' Hb' Ht') as (p & q & Ip & Iq & R1). exists p, q. rewrite !Htimes. auto. }
  intros t (a & b & Ia & Ib & Hab). apply C124_curve; auto.
  - intros ta A tb B Hadj. pose proof (adjacent_close c' h ta A tb B Hc' Hg' Hadj) as Hd. destruct Hadj as (u & w & Ec).
    apply (Ht ta A tb B); [| |exact Hd]; apply Hin; rewrite Ec, in_app_iff; simpl; auto.
  - exists a, b. rewrite !Htimes. auto.
Qed.

(** If exponential and logarithm leave the position alone, the turning does not matter for the position. *)
Theorem C124_componentwise : forall (c : se3_curve) t, consistent (s_mgr c) ->
  (forall t P, In (t, P) (contents (s_mgr c)) -> between (p3_pos P) (f t) <= e) ->
  covered (map fst (contents (s_mgr c))) h -> in_range (map fst (contents (s_mgr c))) t ->
  exists P, rp_at c t = Ok P /\ between (p3_pos P) (f t) <= V * (h / 2) + e.
Proof.
  intros c t Hc Hs Hg (a & b & Ia & Ib & Ht).
  apply in_map_iff in Ia as ((a0 & va) & Ea & Ia). apply in_map_iff in Ib as ((b0 & vb) & Eb & Ib). cbn [fst] in *. subst a0 b0.
  assert (Hn : contents (s_mgr c) <> []) by (intros Y; rewrite Y in Ia; destruct Ia).
  pose proof (contents_bounds _ _ _ Hc Ia). pose proof (contents_bounds _ _ _ Hc Ib).
  destruct (C95_componentwise c Hc) as (Hat & _ & Hseg).
  destruct (pw_cases (s_mgr c) t Hc Hn ltac:(lra)) as [(v & Hv)|(u & ta & A & tb & B & w & E & Ht')].
  - exists v. split; [now apply Hat|]. pose proof (Hs _ _ Hv).
    assert (Ph : 0 <= h).
    { destruct (Hg a b t) as (a' & b' & _ & _ & ? & ?); auto; [now apply (in_map fst) in Ia|now apply (in_map fst) in Ib|lra]. }
    pose proof (Rmult_le_pos _ _ HV Ph) as PV. lra.
  - assert (Hadj : adjacent (contents (s_mgr c)) (ta, A) (tb, B)) by (now exists u, w).
    assert (IA : In (ta, A) (contents (s_mgr c))) by (rewrite E, in_app_iff; simpl; auto).
    assert (IB : In (tb, B) (contents (s_mgr c))) by (rewrite E, in_app_iff; simpl; auto).
    pose proof (adjacent_close c h ta A tb B Hc Hg Hadj) as Hh.
    destruct (Hseg _ _ _ _ Hadj) as (Hlt & ux & d & _ & _ & HP). destruct (HP t ltac:(lra)) as (P & EP & Ep & _).
    exists P. split; [exact EP|]. rewrite Ep. exact (chord_near ta tb t _ _ Hlt (proj2 Hh) ltac:(lra) (Hs _ _ IA) (Hs _ _ IB)).
Qed.

End Body.

(** Whatever the body turns by. *)
Theorem C124_any_turn : forall (X : vec3 R) (f : R -> vec3 R) (V h e : R) (c : se3_curve) t, 0 <= V -> 0 <= e -> paced between f V ->
  consistent (s_mgr c) -> (forall t P, In (t, P) (contents (s_mgr c)) -> between (moved P X) (f t) <= e) ->
  covered (map fst (contents (s_mgr c))) h -> in_range (map fst (contents (s_mgr c))) t ->
  exists P, se3_at c t = Ok P /\ between (moved P X) (f t) <= V * (h / 2) + e + (V * h + 2 * e) * PI / 5.
Proof.
  intros X f V h e c t HV He Hf Hc Hs Hg Ht. pose proof PI_RGT_0.
  apply (C124_curve X f V h e PI HV He ltac:(lra) Hf c t Hc Hs); auto.
  intros ta A tb B _. apply angle_bounds.
Qed.

(** ** How good the bounds are *)

Lemma line_norm a : vnorm (V3 a 0 0) = Rabs a.
Proof. unfold vnorm. cbn. rewrite <- sqrt_Rsqr_abs. f_equal. unfold Rsqr. ring. Qed.

Lemma origin_moved P : moved P (V3 0 0 0) = p3_pos P.
Proof. unfold moved. assert (Z : turned (p3_rot P) (V3 0 0 0) = V3 0 0 0) by (unfold turned; generalize (r3 (p3_rot P)); qring). rewrite Z. generalize (p3_pos P). qring. Qed.

(** The part of the bound that does not depend on the turning is reached, for all [V] and [h]. *)
Theorem C124_sharp : forall V h, 0 <= V -> 0 < h ->
  exists (c : se3_curve) f P, paced between f V /\ consistent (s_mgr c) /\ contents (s_mgr c) = [(0, pose3_one); (h, pose3_one)] /\
    (forall t P, In (t, P) (contents (s_mgr c)) -> p3_pos P = f t) /\
    se3_at c (h / 2) = Ok P /\ between (p3_pos P) (f (h / 2)) = V * (h / 2).
Proof.
  intros V h HV Hh. destruct (curve_exists [(0, pose3_one); (h, pose3_one)] policy_default) as (g & c & _ & [Hc _] & Ec & _);
    [apply two_increasing; lra|reflexivity|].
  assert (Hs : forall t P, In (t, P) (contents (s_mgr c)) -> P = pose3_one).
  { intros t P Hi. rewrite Ec in Hi. destruct Hi as [Y|[Y|[]]]; congruence. }
  assert (F0 : forth_back h 0 = 0) by (unfold forth_back; rewrite Rabs_left1 by lra; lra).
  assert (F1 : forth_back h h = 0) by (unfold forth_back; rewrite Rabs_pos_eq by lra; lra).
  assert (F2 : forth_back h (h / 2) = h / 2) by (unfold forth_back; rewrite Rminus_eq_0, Rabs_R0; lra).
  assert (Zero : forall x, between x x = 0).
  { intros [a b d]. unfold between, HermiteE3.vsub. cbn. numR. rewrite !Rminus_eq_0, line_norm. apply Rabs_R0. }
  destruct (C124_any_turn (V3 0 0 0) (fun _ => V3 0 0 0) 0 h 0 c (h / 2)) as (P & EP & NP); [lra|lra| |exact Hc| | | |].
  - intros s t. rewrite Zero. lra.
  - intros t P Hi. rewrite (Hs _ _ Hi), origin_moved. cbn [p3_pos pose3_one]. rewrite Zero. lra.
  - rewrite Ec. cbn [map fst]. apply two_covered. exact Hh.
  - rewrite Ec. exists 0, h. cbn. split; [auto|]. split; [auto|lra].
  - rewrite origin_moved in NP.
    assert (Ep : p3_pos P = V3 0 0 0).
    { destruct (p3_pos P) as [a b d]. unfold between, vnorm, HermiteE3.vsub in NP. cbn in NP. numR.
      assert (Q : (a - 0) * (a - 0) + (b - 0) * (b - 0) + (d - 0) * (d - 0) = 0).
      { apply sqrt_eq_0; [nra|]. apply Rle_antisym; [|apply sqrt_pos]. eapply Rle_trans; [exact NP|]. lra. }
      f_equal; nra. }
    exists c, (fun t => V3 (V * forth_back h t) 0 0), P. split; [|split; [exact Hc|split; [exact Ec|split; [|split; [exact EP|]]]]].
    + intros s t. unfold between, HermiteE3.vsub. cbn. numR. rewrite Rminus_eq_0, line_norm.
      replace (V * forth_back h s - V * forth_back h t) with (V * (forth_back h s - forth_back h t)) by ring.
      rewrite Rabs_mult, (Rabs_pos_eq V) by exact HV. apply Rmult_le_compat_l; [exact HV|apply forth_back_lipschitz].
    + intros t Q Hi. rewrite Ec in Hi. destruct Hi as [Y|[Y|[]]]; injection Y as <- <-; cbn [pose3_one p3_pos]; rewrite ?F0, ?F1, Rmult_0_r; reflexivity.
    + rewrite Ep, F2. unfold between, HermiteE3.vsub. cbn. numR. rewrite !Rminus_eq_0, line_norm, Rabs_minus_sym, Rminus_0_r. apply Rabs_pos_eq.
      apply Rmult_le_pos; lra.
Qed.

(** The turning does matter: with a half turn from one pose to the next the distance exceeds [V * h / 2]. *)
Theorem C124_turn_refuted : exists (c : se3_curve) f V h t P, paced between f V /\ consistent (s_mgr c) /\
  (forall t P, In (t, P) (contents (s_mgr c)) -> p3_pos P = f t) /\
  covered (map fst (contents (s_mgr c))) h /\ in_range (map fst (contents (s_mgr c))) t /\
  se3_at c t = Ok P /\ V * (h / 2) < between (p3_pos P) (f t).
Proof.
  destruct (curve_exists [(0, pose3_one); (2, target)] policy_default) as (g & c & _ & [Hc _] & Ec & _);
    [apply two_increasing; lra|reflexivity|].
  set (f := fun t => V3 (t / 2) (forth_back 2 t / 2) 0).
  assert (F0 : forth_back 2 0 = 0) by (unfold forth_back; rewrite Rabs_left1 by lra; lra).
  assert (F1 : forth_back 2 2 = 0) by (unfold forth_back; rewrite Rabs_pos_eq by lra; lra).
  assert (F2 : forth_back 2 1 = 1) by (unfold forth_back; replace (1 - 2 / 2) with 0 by field; rewrite Rabs_R0; lra).
  exists c, f, (3 / 4), 2, 1. eexists. split; [|split; [exact Hc|split; [|split; [|split; [|split]]]]].
  - intros s t. unfold between, f, HermiteE3.vsub. cbn. numR. apply le_by_squares.
    + apply Rmult_le_pos; [lra|apply Rabs_pos].
    + rewrite vnorm_sqr. unfold along. cbn. pose proof (forth_back_lipschitz 2 s t) as L.
      apply Rsqr_le_abs_1 in L. unfold Rsqr in L.
      replace (3 / 4 * Rabs (s - t) * (3 / 4 * Rabs (s - t))) with (9 / 16 * ((s - t) * (s - t))).
      2: { replace (3 / 4 * Rabs (s - t) * (3 / 4 * Rabs (s - t))) with (9 / 16 * (Rabs (s - t) * Rabs (s - t))) by field.
           rewrite <- Rabs_mult, Rabs_pos_eq by apply Rle_0_sqr. reflexivity. }
      pose proof (Rle_0_sqr (s - t)) as Q. unfold Rsqr in Q. rewrite Rminus_eq_0. nra.
  - intros t P Hi. rewrite Ec in Hi. destruct Hi as [Y|[Y|[]]]; injection Y as <- <-; unfold f; cbn [pose3_one target p3_pos]; rewrite ?F0, ?F1; f_equal; field.
  - rewrite Ec. apply two_covered. lra.
  - rewrite Ec. exists 0, 2. cbn. split; [auto|]. split; [auto|lra].
  - apply (blend_value _ _ _ se3_zero se3_one c [] 0 pose3_one 2 target [] 1 Hc Ec); lra.
  - match goal with |- _ < between (p3_pos ?Q) _ => assert (E : p3_pos Q = V3 (1 / 2) (- 1 / 2) 0) end.
    { rewrite from_one, target_log, se3_exp_turning by (unfold dot; cbn; try ring; pose proof PI_RGT_0; lra).
      cbn [gmul pose3_GroupOps pose3_mul pose3_one p3_rot p3_pos]. rewrite turned_one. unfold displacement.
      replace (PI * ((1 - 0) / (2 - 0))) with (PI / 2) by field. rewrite sin_PI2, cos_PI2. pose proof PI_RGT_0.
      unfold comb, dot. apply vec3_ext; intros []; cbn [coord HermiteE3.vadd vscale cross vx vy vz]; numR; field; lra. }
    rewrite E. unfold f. rewrite F2. unfold between, vnorm, HermiteE3.vsub. cbn. numR.
    replace ((1 / 2 - 1 / 2) * (1 / 2 - 1 / 2) + (-1 / 2 - 1 / 2) * (-1 / 2 - 1 / 2) + (0 - 0) * (0 - 0)) with 1 by field. rewrite sqrt_1. lra.
Qed.

(** The pose of [C95_example]: half a turn within two seconds while the body moves one unit along a straight line. *)
Example C124_example : exists g' (c' : se3_curve) ks,
  slerp_fit 0 (Slerp mgr_empty policy_default) [2; 0] [target; pose3_one] [] = Ok (g', c', ks) /\
  forall t, 0 <= t <= 2 -> exists P, se3_at c' t = Ok P /\ between (p3_pos P) (V3 (t / 2) 0 0) <= 1 / 2 + PI / 5.
Proof.
  pose proof PI_RGT_0 as PP.
  assert (L : paced between (fun t => V3 (t / 2) 0 0) (1 / 2)).
  { intros s t. unfold between, HermiteE3.vsub. cbn. numR. rewrite Rminus_eq_0, line_norm.
    replace (s / 2 - t / 2) with (1 / 2 * (s - t)) by field. rewrite Rabs_mult, (Rabs_pos_eq (1 / 2)) by lra. lra. }
  destruct (C124_fit (V3 0 0 0) (fun t => V3 (t / 2) 0 0) (1 / 2) 2 0 PI ltac:(lra) ltac:(lra) ltac:(lra) L
    0%N (Slerp mgr_empty policy_default) [2; 0] [target; pose3_one] []) as (g' & c' & ks & E & Hf); [reflexivity|discriminate|reflexivity| | | |].
  - intros t P [Y|[Y|[]]]; injection Y as <- <-; rewrite origin_moved; unfold between, HermiteE3.vsub; cbn; numR;
      rewrite !Rminus_eq_0, line_norm; match goal with |- Rabs ?z <= _ => replace z with 0 by field end; rewrite Rabs_R0; lra.
  - intros s A t B _ _ _. apply angle_bounds.
  - intros a b t Ha Hb Ht. exists 0, 2. split; [now right; left|]. split; [now left|].
    destruct Ha as [<-|[<-|[]]]; destruct Hb as [<-|[<-|[]]]; lra.
  - exists g', c', ks. split; [exact E|]. intros t Ht. destruct (Hf t) as (P & EP & NP).
    + exists 0, 2. split; [now right; left|]. split; [now left|lra].
    + exists P. split; [exact EP|]. rewrite origin_moved in NP. lra.
Qed.
