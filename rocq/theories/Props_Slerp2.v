(** * C74 - C77: the curve in SE2 *)

From Coquelicot Require Import Coquelicot.
From Coq Require Import List Reals Lra Lia Bool Arith NArith ZArith Permutation Sorting.Sorted.
From Verif Require Import Base TimeOrder TimeInst KeyGen Manager ManagerSpec ManagerProofs ManagerProofs2
  ManagerProofs3 Num Sampling SamplingSpec SamplingProofs HermiteSpec HermiteE3Proofs Discrete DiscreteSpec DiscreteProofs
  Props_Manager Props_Discrete Slerp2 Se2.
Import ListNotations.
Local Open Scope R_scope.

Local Notation se2_curve := (@slerp_curve R pose2).
Local Notation se2_at := (semi_evaluate se2_exp se2_log se2_scale).

(** ** C74: the motion between two coefficients *)

Section Segment.
Variables (c : se2_curve) (u w : list (R * pose2)) (ta tb : R) (A B : pose2).
Hypothesis Hc : consistent (s_mgr c).
Hypothesis Hseg : contents (s_mgr c) = u ++ (ta, A) :: (tb, B) :: w.

Let Hlt : ta < tb := consistent_incr _ _ _ _ _ _ _ Hc Hseg.
Let xi := se2_log (gmul (ginv A) B).

Lemma segment_value t : ta <= t <= tb ->
  se2_at c t = Ok (gmul A (se2_exp (se2_scale xi ((t - ta) / (tb - ta))))).
Proof.
  intros Ht. change (se2_at c t = Ok (blended se2_exp se2_log se2_scale ta A tb B t)).
  destruct (Req_dec t ta) as [->|Ha]; [|destruct (Req_dec t tb) as [->|Hb]].
  - rewrite (blended_starts _ _ _ se2_exp_log) by exact Hlt.
    apply C60_at_coefficient; [apply se2_exp_log|exact Hc|]. rewrite Hseg, in_app_iff. simpl. auto.
  - rewrite (blended_ends _ _ _ se2_exp_log) by exact Hlt.
    apply C60_at_coefficient; [apply se2_exp_log|exact Hc|]. rewrite Hseg, in_app_iff. simpl. auto.
  - apply (pw_between _ c u ta A tb B w t); auto. lra.
Qed.

Lemma xi_angle : w2_w xi = heading (p2_rot (gmul (ginv A) B)).
Proof. apply log_w. Qed.

Lemma end_rotation : p2_rot B = rot_mul (rot_of (w2_w xi)) (p2_rot A).
Proof.
  rewrite xi_angle, rot_heading. cbn [gmul ginv pose2_GroupOps pose2_mul pose2_inv p2_rot].
  pose proof (r_unit (p2_rot A)) as U. apply rot2_ext; cbn.
  - transitivity (rc (p2_rot B) * (rc (p2_rot A) * rc (p2_rot A) + rs (p2_rot A) * rs (p2_rot A))); [rewrite U; ring|ring].
  - transitivity (rs (p2_rot B) * (rc (p2_rot A) * rc (p2_rot A) + rs (p2_rot A) * rs (p2_rot A))); [rewrite U; ring|ring].
Qed.
End Segment.

(** Between two coefficients the heading turns at a constant rate by the smaller of the
    two angles, and the position moves on a straight line (if the heading does not
    change) or on a circle, whose centre [q] is, by the same angle as the heading. *)
Theorem C74_segment : forall (c : se2_curve) ta A tb B,
  consistent (s_mgr c) -> adjacent (contents (s_mgr c)) (ta, A) (tb, B) ->
  ta < tb /\ exists d, - PI < d <= PI /\ p2_rot B = rot_mul (rot_of d) (p2_rot A) /\
  (d = 0 -> forall t, ta <= t <= tb -> exists P, se2_at c t = Ok P /\ p2_rot P = p2_rot A /\
     let al := (t - ta) / (tb - ta) in
     p2_x P = (1 - al) * p2_x A + al * p2_x B /\ p2_y P = (1 - al) * p2_y A + al * p2_y B) /\
  (d <> 0 -> exists qx qy, forall t, ta <= t <= tb -> exists P, se2_at c t = Ok P /\
     let r := rot_of ((t - ta) / (tb - ta) * d) in
     p2_rot P = rot_mul r (p2_rot A) /\
     p2_x P - qx = turn_x r (p2_x A - qx) (p2_y A - qy) /\
     p2_y P - qy = turn_y r (p2_x A - qx) (p2_y A - qy)).
Proof.
  intros c ta A tb B Hc (u & w & E). pose proof (consistent_incr _ _ _ _ _ _ _ Hc E) as Hlt. split; [exact Hlt|].
  set (xi := se2_log (gmul (ginv A) B)). exists (w2_w xi).
  pose proof (segment_value c u w ta tb A B Hc E) as Hv. fold xi in Hv.
  split; [unfold xi; rewrite log_w; apply heading_bounds|].
  pose proof (end_rotation A B) as Er. fold xi in Er. split; [exact Er|]. split.
  - intros H0 t Ht. eexists. split; [exact (Hv t Ht)|]. cbv zeta. set (al := (t - ta) / (tb - ta)).
    rewrite exp_straight by exact H0.
    assert (Eb : B = gmul A (se2_exp (se2_scale xi 1))).
    { unfold xi. rewrite (el_inverse _ _ _ se2_exp_log). now rewrite ginv_cancel. }
    rewrite exp_straight in Eb by exact H0. split; [|split].
    + apply rot2_ext; cbn; rewrite cos_0, sin_0; ring.
    + rewrite Eb at 1. cbn. unfold turn_x. cbn. ring.
    + rewrite Eb at 1. cbn. unfold turn_y. cbn. ring.
  - intros H0. pose proof (r_unit (p2_rot A)) as U.
    exists (p2_x A + turn_x (p2_rot A) (- w2_y xi / w2_w xi) (w2_x xi / w2_w xi)),
           (p2_y A + turn_y (p2_rot A) (- w2_y xi / w2_w xi) (w2_x xi / w2_w xi)).
    intros t Ht. eexists. split; [exact (Hv t Ht)|]. cbv zeta. rewrite (Rmult_comm _ (w2_w xi)).
    set (al := (t - ta) / (tb - ta)). rewrite exp_turning by exact H0. cbv zeta. set (a := w2_w xi) in *. split; [|split].
    + apply rot2_ext; cbn; ring.
    + cbn. unfold turn_x, turn_y. cbn. field. exact H0.
    + cbn. unfold turn_x, turn_y. cbn. field. exact H0.
Qed.

(** The angle is determined by this. *)
Theorem C74_angle_unique : forall (A B : pose2) d d', - PI < d <= PI -> - PI < d' <= PI ->
  p2_rot B = rot_mul (rot_of d) (p2_rot A) -> p2_rot B = rot_mul (rot_of d') (p2_rot A) -> d = d'.
Proof.
  intros A B d d' Hd Hd' E E'. apply angle_unique; auto. rewrite E in E'.
  pose proof (r_unit (p2_rot A)) as U.
  assert (X : forall r, r = rot_mul (rot_mul r (p2_rot A)) (rot_inv (p2_rot A))).
  { intros r. apply rot2_ext; cbn.
    - transitivity (rc r * (rc (p2_rot A) * rc (p2_rot A) + rs (p2_rot A) * rs (p2_rot A))); [rewrite U; ring|ring].
    - transitivity (rs r * (rc (p2_rot A) * rc (p2_rot A) + rs (p2_rot A) * rs (p2_rot A))); [rewrite U; ring|ring]. }
  rewrite (X (rot_of d)), (X (rot_of d')), E'. reflexivity.
Qed.

(** Position and heading as functions of time. *)
Definition se2_x (c : se2_curve) (t : R) : R := match se2_at c t with Ok P => p2_x P | _ => 0 end.
Definition se2_y (c : se2_curve) (t : R) : R := match se2_at c t with Ok P => p2_y P | _ => 0 end.
Definition se2_c (c : se2_curve) (t : R) : R := match se2_at c t with Ok P => rc (p2_rot P) | _ => 0 end.
Definition se2_s (c : se2_curve) (t : R) : R := match se2_at c t with Ok P => rs (p2_rot P) | _ => 0 end.

Lemma derivable_local (f g : R -> R) a b t l : a < t < b -> (forall s, a < s < b -> f s = g s) ->
  derivable_pt_lim f t l -> derivable_pt_lim g t l.
Proof.
  intros Ht E H. apply is_derive_Reals. apply is_derive_Reals in H. apply (is_derive_ext_loc f); [|exact H].
  assert (He : 0 < Rmin (t - a) (b - t)) by (apply Rmin_glb_lt; lra).
  exists (mkposreal _ He). intros s Hs. apply E. unfold ball in Hs; simpl in Hs; unfold AbsRing_ball, abs, minus, plus, opp in Hs; simpl in Hs.
  pose proof (Rmin_l (t - a) (b - t)). pose proof (Rmin_r (t - a) (b - t)).
  apply Rabs_def2 in Hs. lra.
Qed.

(** The velocity of the body, seen by the body, is constant between two coefficients. *)
Theorem C74_constant_velocity : forall (c : se2_curve) ta A tb B,
  consistent (s_mgr c) -> adjacent (contents (s_mgr c)) (ta, A) (tb, B) ->
  exists vx vy om, forall t, ta < t < tb ->
    derivable_pt_lim (se2_x c) t (se2_c c t * vx - se2_s c t * vy) /\
    derivable_pt_lim (se2_y c) t (se2_s c t * vx + se2_c c t * vy) /\
    derivable_pt_lim (se2_c c) t (- om * se2_s c t) /\
    derivable_pt_lim (se2_s c) t (om * se2_c c t).
Proof.
  intros c ta A tb B Hc (u & w & E). pose proof (consistent_incr _ _ _ _ _ _ _ Hc E) as Hlt.
  set (xi := se2_log (gmul (ginv A) B)). set (h := tb - ta).
  exists (w2_x xi / h), (w2_y xi / h), (w2_w xi / h). intros t Ht.
  pose proof (segment_value c u w ta tb A B Hc E) as Hv. fold xi h in Hv.
  assert (Hh : h <> 0) by (unfold h; lra).
  set (cA := rc (p2_rot A)). set (sA := rs (p2_rot A)). set (a := w2_w xi).
  (* the motion in closed form *)
  assert (Fx : forall s, ta < s < tb ->
    (let al := (s - ta) / h in
     se2_c c s = cA * cos (a * al) - sA * sin (a * al) /\ se2_s c s = sA * cos (a * al) + cA * sin (a * al))).
  { intros s Hs. cbv zeta. unfold se2_c, se2_s. rewrite Hv by lra. unfold a, cA, sA.
    destruct (Req_EM_T (w2_w xi) 0) as [Z|Z].
    - rewrite exp_straight, Z, Rmult_0_l by exact Z. cbn. split; ring.
    - rewrite exp_turning by exact Z. cbn. split; ring. }
  assert (Dc : forall k1 k2, derivable_pt_lim (fun s => k1 * cos (a * ((s - ta) / h)) + k2 * sin (a * ((s - ta) / h))) t
     (a / h * (k2 * cos (a * ((t - ta) / h)) - k1 * sin (a * ((t - ta) / h))))).
  { intros k1 k2. apply is_derive_Reals. auto_derive; [trivial|]. unfold Rminus, Rdiv. ring. }
  destruct (Fx t Ht) as [Ct St]. cbv zeta in Ct, St. split; [|split; [|split]].
  - rewrite Ct, St. destruct (Req_EM_T a 0) as [Z|Z].
    + apply (derivable_local (fun s => p2_x A + (cA * (w2_x xi * ((s - ta) / h)) - sA * (w2_y xi * ((s - ta) / h)))) _ ta tb t); [exact Ht| |].
      * intros s Hs. unfold se2_x. rewrite Hv by lra. rewrite exp_straight by exact Z. reflexivity.
      * rewrite Z, !Rmult_0_l, cos_0, sin_0. apply is_derive_Reals. auto_derive; [trivial|]. unfold Rminus, Rdiv. ring.
    + apply (derivable_local (fun s => p2_x A +
        (cA * ((sin (a * ((s - ta) / h)) * w2_x xi - (1 - cos (a * ((s - ta) / h))) * w2_y xi) / a) -
         sA * (((1 - cos (a * ((s - ta) / h))) * w2_x xi + sin (a * ((s - ta) / h)) * w2_y xi) / a))) _ ta tb t); [exact Ht| |].
      * intros s Hs. unfold se2_x. rewrite Hv by lra. rewrite exp_turning by exact Z. reflexivity.
      * apply is_derive_Reals. auto_derive; [trivial|]. unfold Rminus, Rdiv. field. split; auto.
  - rewrite Ct, St. destruct (Req_EM_T a 0) as [Z|Z].
    + apply (derivable_local (fun s => p2_y A + (sA * (w2_x xi * ((s - ta) / h)) + cA * (w2_y xi * ((s - ta) / h)))) _ ta tb t); [exact Ht| |].
      * intros s Hs. unfold se2_y. rewrite Hv by lra. rewrite exp_straight by exact Z. reflexivity.
      * rewrite Z, !Rmult_0_l, cos_0, sin_0. apply is_derive_Reals. auto_derive; [trivial|]. unfold Rminus, Rdiv. ring.
    + apply (derivable_local (fun s => p2_y A +
        (sA * ((sin (a * ((s - ta) / h)) * w2_x xi - (1 - cos (a * ((s - ta) / h))) * w2_y xi) / a) +
         cA * (((1 - cos (a * ((s - ta) / h))) * w2_x xi + sin (a * ((s - ta) / h)) * w2_y xi) / a))) _ ta tb t); [exact Ht| |].
      * intros s Hs. unfold se2_y. rewrite Hv by lra. rewrite exp_turning by exact Z. reflexivity.
      * apply is_derive_Reals. auto_derive; [trivial|]. unfold Rminus, Rdiv. field. split; auto.
  - rewrite St. replace (- (a / h) * (sA * cos (a * ((t - ta) / h)) + cA * sin (a * ((t - ta) / h))))
      with (a / h * (- sA * cos (a * ((t - ta) / h)) - cA * sin (a * ((t - ta) / h)))) by ring.
    apply (derivable_local (fun s => cA * cos (a * ((s - ta) / h)) + (- sA) * sin (a * ((s - ta) / h))) _ ta tb t); [exact Ht| |apply Dc].
    intros s Hs. destruct (Fx s Hs) as [-> _]. ring.
  - rewrite Ct. replace (a / h * (cA * cos (a * ((t - ta) / h)) - sA * sin (a * ((t - ta) / h))))
      with (a / h * (cA * cos (a * ((t - ta) / h)) - sA * sin (a * ((t - ta) / h)))) by ring.
    apply (derivable_local (fun s => sA * cos (a * ((s - ta) / h)) + cA * sin (a * ((s - ta) / h))) _ ta tb t); [exact Ht| |apply Dc].
    intros s Hs. destruct (Fx s Hs) as [_ ->]. ring.
Qed.

(** ** C77: the expression of a value *)

Section Expression.
Context {V : Type} `{GroupLaws V} {W : Type} (vexp : W -> V) (vlog : V -> W) (vscale : W -> R -> W).
Hypothesis Hel : exp_log vexp vlog vscale.
Local Notation curve := (@slerp_curve R V).
Local Notation ev := (semi_evaluate vexp vlog vscale).
Local Notation expr := (slerp2_expression vexp vlog vscale).

(** The coefficient at [s] is next to the time [t]: no coefficient is between them. *)
Definition next_to (m : mgr R V) (s t : R) : Prop :=
  forall s' v', In (s', v') (contents m) -> ~ (s < s' < t \/ t < s' < s).

Lemma segment_general (c : curve) u ta va tb vb w t : consistent (s_mgr c) ->
  contents (s_mgr c) = u ++ (ta, va) :: (tb, vb) :: w -> ta <= t <= tb ->
  ev c t = Ok (blended vexp vlog vscale ta va tb vb t).
Proof.
  intros Hc E Ht. pose proof (consistent_incr _ _ _ _ _ _ _ Hc E) as Hlt.
  destruct (Req_dec t ta) as [->|Ha]; [|destruct (Req_dec t tb) as [->|Hb]].
  - rewrite (blended_starts _ _ _ Hel) by exact Hlt. apply C60_at_coefficient; auto. rewrite E, in_app_iff. simpl. auto.
  - rewrite (blended_ends _ _ _ Hel) by exact Hlt. apply C60_at_coefficient; auto. rewrite E, in_app_iff. simpl. auto.
  - apply (pw_between _ c u ta va tb vb w t); auto. lra.
Qed.

(** What getCoefficientsAt found, as contents. *)
Lemma found (m : mgr R V) t n0 n1 : consistent m -> get_coefficients_at m t = Some (n0, n1) ->
  exists a b, nodes m = a ++ n0 :: n1 :: b /\ n_time n0 <= t <= n_time n1 /\ n_time n0 < n_time n1 /\
    next_to m (n_time n0) t /\ next_to m (n_time n1) t.
Proof.
  intros Hc Eg. destruct (get_at_some _ t n0 n1 Hc Eg) as (a & b & En & G0 & G1). apply tle_R in G0.
  exists a, b. split; [exact En|].
  assert (Ec : contents m = map tc a ++ (n_time n0, n_coef n0) :: (n_time n1, n_coef n1) :: map tc b).
  { unfold contents. rewrite En, map_app. reflexivity. }
  pose proof (consistent_incr _ _ _ _ _ _ _ Hc Ec) as Hlt.
  assert (G2 : t <= n_time n1).
  { destruct G1 as [G1|[_ G1]]; [apply tlt_R in G1|apply teq_R in G1]; lra. }
  split; [lra|]. split; [exact Hlt|].
  split; intros s' v' Hi Hx; destruct (split_bounds m _ _ _ _ _ _ s' v' Hc Ec Hi) as [X|[[X _]|[[X _]|X]]]; lra.
Qed.

(** Nodes with the same times and keys. *)
Lemma same_split (l l' : list (node R V)) a n0 n1 b :
  l = a ++ n0 :: n1 :: b -> map n_time l' = map n_time l -> map n_key l' = map n_key l ->
  exists a' n0' n1' b', l' = a' ++ n0' :: n1' :: b' /\ n_time n0' = n_time n0 /\ n_key n0' = n_key n0 /\
    n_time n1' = n_time n1 /\ n_key n1' = n_key n1.
Proof.
  revert l'. revert l. induction a as [|x a IH]; intros l l' -> Et Ek.
  - destruct l' as [|n0' [|n1' b']]; try discriminate. simpl in *. injection Et as E1 E2 _. injection Ek as E3 E4 _.
    exists [], n0', n1', b'. auto.
  - destruct l' as [|y l']; [discriminate|]. simpl in *. injection Et as _ Et. injection Ek as _ Ek.
    destruct (IH _ l' eq_refl Et Ek) as (a' & n0' & n1' & b' & -> & X). exists (y :: a'), n0', n1', b'. auto.
Qed.

(** The expression is there for the times of the curve, given two coefficients, and
    contains only coefficients next to the time. *)
Theorem C77_defined : forall (c : curve) t, consistent (s_mgr c) ->
  ((2 <= size (s_mgr c))%nat /\ min_time (s_mgr c) <= t <= max_time (s_mgr c) ->
   exists e, expr c t = Ok e /\
     forall k, In k (expression_keys e) -> exists s v, holds (s_mgr c) s k v /\ next_to (s_mgr c) s t) /\
  (~ ((2 <= size (s_mgr c))%nat /\ min_time (s_mgr c) <= t <= max_time (s_mgr c)) -> expr c t = Abort).
Proof.
  intros c t Hc. split.
  - intros [Hsz Ht]. destruct (proj2 (get_at_domain (s_mgr c) t Hc)) as [[n0 n1] Eg]; [rewrite !tle_R; tauto|].
    destruct (found _ _ _ _ Hc Eg) as (a & b & En & Hb & Hlt & N0 & N1).
    assert (I0 : In n0 (nodes (s_mgr c))) by (rewrite En, in_app_iff; simpl; auto).
    assert (I1 : In n1 (nodes (s_mgr c))) by (rewrite En, in_app_iff; simpl; auto).
    assert (Hk0 : holds (s_mgr c) (n_time n0) (n_key n0) (n_coef n0)) by (exists n0; repeat split; auto; now apply teq_R).
    assert (Hk1 : holds (s_mgr c) (n_time n1) (n_key n1) (n_coef n1)) by (exists n1; repeat split; auto; now apply teq_R).
    unfold slerp2_expression. rewrite Eg. cbv zeta.
    destruct (neqb _ _).
    { eexists. split; [reflexivity|]. simpl. intros k [<-|[]]. eauto. }
    destruct (neqb _ _).
    { eexists. split; [reflexivity|]. simpl. intros k [<-|[]]. eauto. }
    rewrite (C60_at_coefficient vexp vlog vscale c (n_time n0) (n_coef n0) Hel Hc) by (now apply contents_in). cbn [bind].
    rewrite (C60_at_coefficient vexp vlog vscale c (n_time n1) (n_coef n1) Hel Hc) by (now apply contents_in). cbn [bind].
    eexists. split; [reflexivity|]. simpl. intros k [<-|[<-|[]]]; eauto.
  - intros Hx. unfold slerp2_expression. destruct (get_coefficients_at (s_mgr c) t) as [p|] eqn:Eg; [|reflexivity].
    exfalso. apply Hx. destruct (proj1 (get_at_domain (s_mgr c) t Hc)) as (A & B & D); [eauto|]. apply tle_R in B, D. auto.
Qed.

(** Whatever values the coefficients are given later, the expression made before has the
    value of the curve with these coefficients. *)
Theorem C77_value : forall (c c' : curve) t e env, consistent (s_mgr c) -> consistent (s_mgr c') ->
  get_times (s_mgr c') = get_times (s_mgr c) -> get_keys (s_mgr c') = get_keys (s_mgr c) ->
  (forall k v, get_coefficient_by_key (s_mgr c') k = Ok v -> env k = v) ->
  expr c t = Ok e -> ev c' t = Ok (expression_value vexp vlog vscale env e).
Proof.
  intros c c' t e env Hc Hc' Et Ek Henv Ee. unfold slerp2_expression in Ee.
  destruct (get_coefficients_at (s_mgr c) t) as [[n0 n1]|] eqn:Eg; [|discriminate].
  destruct (found _ _ _ _ Hc Eg) as (a & b & En & Hb & Hlt & _).
  destruct (same_split _ (nodes (s_mgr c')) _ _ _ _ En Et Ek) as (a' & n0' & n1' & b' & En' & T0 & K0 & T1 & K1).
  assert (V0 : env (n_key n0) = n_coef n0').
  { apply Henv. rewrite <- K0. apply get_by_key_ok; auto. rewrite En', in_app_iff. simpl. auto. }
  assert (V1 : env (n_key n1) = n_coef n1').
  { apply Henv. rewrite <- K1. apply get_by_key_ok; auto. rewrite En', in_app_iff. simpl. auto. }
  assert (Ec : contents (s_mgr c') = map tc a' ++ (n_time n0, n_coef n0') :: (n_time n1, n_coef n1') :: map tc b').
  { unfold contents. rewrite En', map_app, <- T0, <- T1. reflexivity. }
  rewrite (segment_general c' _ _ _ _ _ _ t Hc' Ec Hb). f_equal.
  cbv zeta in Ee. destruct (neqb _ (#0)%num) eqn:E0; [|destruct (neqb _ (#1)%num) eqn:E1].
  - injection Ee as <-. simpl. rewrite V0. apply neqb_R in E0. numR.
    assert (Ex : t = n_time n0).
    { apply (Rmult_eq_compat_r (n_time n1 - n_time n0)) in E0. field_simplify in E0; lra. }
    rewrite Ex. apply (blended_starts _ _ _ Hel). exact Hlt.
  - injection Ee as <-. simpl. rewrite V1. apply neqb_R in E1. numR.
    assert (Ex : t = n_time n1).
    { apply (Rmult_eq_compat_r (n_time n1 - n_time n0)) in E1. field_simplify in E1; lra. }
    rewrite Ex. apply (blended_ends _ _ _ Hel). exact Hlt.
  - destruct (ev c (n_time n0)); try discriminate. destruct (ev c (n_time n1)); try discriminate.
    cbn [bind] in Ee. injection Ee as <-. simpl. now rewrite V0, V1.
Qed.

(** ** C78: prior factors and saving *)

(** With two coefficients and a time of the curve there are two factors, tying the two
    coefficients around the time to the values they have, among them all that are in
    the expression. *)
Theorem C78_prior : forall (c : curve) t, consistent (s_mgr c) -> (2 <= size (s_mgr c))%nat ->
  min_time (s_mgr c) <= t <= max_time (s_mgr c) ->
  exists sa ka va sb kb vb, prior_factors c t = Ok [(ka, va); (kb, vb)] /\
    holds (s_mgr c) sa ka va /\ holds (s_mgr c) sb kb vb /\ sa < sb /\ sa <= t <= sb /\
    next_to (s_mgr c) sa t /\ next_to (s_mgr c) sb t /\
    forall e k, expr c t = Ok e -> In k (expression_keys e) -> k = ka \/ k = kb.
Proof.
  intros c t Hc Hsz Ht. destruct (proj2 (get_at_domain (s_mgr c) t Hc)) as [[n0 n1] Eg]; [rewrite !tle_R; tauto|].
  destruct (found _ _ _ _ Hc Eg) as (a & b & En & Hb & Hlt & N0 & N1).
  exists (n_time n0), (n_key n0), (n_coef n0), (n_time n1), (n_key n1), (n_coef n1).
  unfold prior_factors. rewrite Eg. split; [reflexivity|].
  split; [exists n0; repeat split; [rewrite En, in_app_iff; simpl; auto|now apply teq_R]|].
  split; [exists n1; repeat split; [rewrite En, in_app_iff; simpl; auto|now apply teq_R]|].
  split; [exact Hlt|]. split; [exact Hb|]. split; [exact N0|]. split; [exact N1|].
  intros e k Ee. unfold slerp2_expression in Ee. rewrite Eg in Ee. cbv zeta in Ee.
  destruct (neqb _ _); [injection Ee as <-; simpl; intros [<-|[]]; auto|].
  destruct (neqb _ _); [injection Ee as <-; simpl; intros [<-|[]]; auto|].
  destruct (ev c (n_time n0)); try discriminate. destruct (ev c (n_time n1)); try discriminate.
  injection Ee as <-. simpl. intros [<-|[<-|[]]]; auto.
Qed.

(** In every other case unset iterators are dereferenced, where evaluate and the
    expression stop the program. *)
Theorem C78_prior_unchecked : forall (c : curve) t, consistent (s_mgr c) ->
  ~ ((2 <= size (s_mgr c))%nat /\ min_time (s_mgr c) <= t <= max_time (s_mgr c)) ->
  prior_factors c t = UB /\ expr c t = Abort.
Proof.
  intros c t Hc Hx. split; [|now apply C77_defined].
  unfold prior_factors. destruct (get_coefficients_at (s_mgr c) t) as [p|] eqn:Eg; [|reflexivity].
  exfalso. apply Hx. destruct (proj1 (get_at_domain (s_mgr c) t Hc)) as (A & B & D); [eauto|]. apply tle_R in B, D. auto.
Qed.

(** Saving writes every coefficient once, in order of time. *)
Theorem C78_saved : forall (entries : V -> list R) (c : curve), consistent (s_mgr c) ->
  saved_rows vexp vlog vscale entries c = Ok (map (fun x => (fst x, entries (snd x))) (contents (s_mgr c))).
Proof.
  intros entries c Hc. unfold saved_rows. rewrite <- contents_times.
  assert (X : forall l rows, incl l (contents (s_mgr c)) ->
    foldM (fun rows t => let* v := ev c t in Ok (rows ++ [(t, entries v)])) (map fst l) rows =
    Ok (rows ++ map (fun x => (fst x, entries (snd x))) l)).
  { induction l as [|[t v] l IH]; intros rows Hl; simpl; [now rewrite app_nil_r|].
    rewrite (C60_at_coefficient vexp vlog vscale c t v Hel Hc) by (apply Hl; now left). cbn [bind].
    rewrite IH by (intros x Hx; apply Hl; now right). now rewrite <- app_assoc. }
  now rewrite (X _ [] (incl_refl _)).
Qed.

End Expression.

(** ** Examples *)

(** Straight on for two time units, then a quarter turn. *)
Definition ride : list (R * pose2) :=
  [(0, Pose2 (rot_of 0) 0 0); (2, Pose2 (rot_of 0) 2 0); (3, Pose2 (rot_of (PI / 2)) 3 1)].

Lemma ride_exists : exists g (c : se2_curve), sane g (s_mgr c) /\ contents (s_mgr c) = ride.
Proof.
  destruct (curve_exists ride policy_default) as (g & c & _ & Hs & Ec & _); [|reflexivity|eauto].
  simpl. repeat split; auto; apply Rltb_lt; lra.
Qed.

Example C74_example : exists c : se2_curve, consistent (s_mgr c) /\
  adjacent (contents (s_mgr c)) (0, Pose2 (rot_of 0) 0 0) (2, Pose2 (rot_of 0) 2 0) /\
  exists P, se2_at c (1 / 2) = Ok P /\ p2_x P = 1 / 2 /\ p2_y P = 0 /\ p2_rot P = rot_of 0.
Proof.
  destruct ride_exists as (g & c & [Hc _] & Ec). exists c. split; [exact Hc|].
  assert (Ha : adjacent (contents (s_mgr c)) (0, Pose2 (rot_of 0) 0 0) (2, Pose2 (rot_of 0) 2 0)).
  { rewrite Ec. exists [], [(3, Pose2 (rot_of (PI / 2)) 3 1)]. reflexivity. }
  split; [exact Ha|]. destruct (C74_segment _ _ _ _ _ Hc Ha) as (_ & d & Hd & Ed & Hs & _).
  pose proof PI_RGT_0.
  assert (D0 : d = 0).
  { apply (C74_angle_unique (Pose2 (rot_of 0) 0 0) (Pose2 (rot_of 0) 2 0)); auto; [lra|].
    apply rot2_ext; cbn; rewrite ?cos_0, ?sin_0; ring. }
  destruct (Hs D0 (1 / 2)) as (P & E & Er & Ex & Ey); [lra|]. exists P. cbn in Er, Ex, Ey.
  split; [exact E|]. split; [rewrite Ex; field|]. split; [rewrite Ey; field|]. exact Er.
Qed.

Example C77_example : exists g (c : se2_curve) e, sane g (s_mgr c) /\ contents (s_mgr c) = ride /\
  slerp2_expression se2_exp se2_log se2_scale c (5 / 2) = Ok e /\
  (exists sa ka va sb kb vb, prior_factors c (5 / 2) = Ok [(ka, va); (kb, vb)] /\ sa < sb /\
     holds (s_mgr c) sa ka va /\ holds (s_mgr c) sb kb vb) /\
  prior_factors c 4 = UB.
Proof.
  destruct ride_exists as (g & c & Hs & Ec). pose proof Hs as [Hc _].
  assert (Hsz : (2 <= size (s_mgr c))%nat) by (rewrite contents_size, Ec; simpl; lia).
  assert (Em : min_time (s_mgr c) = 0) by (eapply contents_first; rewrite Ec; reflexivity).
  assert (EM : max_time (s_mgr c) = 3).
  { eapply (contents_max _ [_; _]); rewrite Ec; reflexivity. }
  destruct (proj1 (C77_defined _ _ _ se2_exp_log c (5 / 2) Hc)) as (e & Ee & _); [split; [exact Hsz|lra]|].
  exists g, c, e. split; [exact Hs|]. split; [exact Ec|]. split; [exact Ee|]. split.
  - destruct (C78_prior se2_exp se2_log se2_scale c (5 / 2) Hc Hsz) as (sa & ka & va & sb & kb & vb & E & A & B & D & _);
      [lra|]. exists sa, ka, va, sb, kb, vb. auto.
  - apply (C78_prior_unchecked _ _ _ se2_exp_log c 4 Hc). intros [_ X]. lra.
Qed.

(** The expression made before a coefficient is moved has the value of the curve afterwards. *)
Example C77_value_example : exists (c c' : se2_curve) e env v,
  consistent (s_mgr c) /\ consistent (s_mgr c') /\
  get_times (s_mgr c') = get_times (s_mgr c) /\ get_keys (s_mgr c') = get_keys (s_mgr c) /\
  contents (s_mgr c') <> contents (s_mgr c) /\
  slerp2_expression se2_exp se2_log se2_scale c (5 / 2) = Ok e /\
  (forall k x, get_coefficient_by_key (s_mgr c') k = Ok x -> env k = x) /\
  se2_at c' (5 / 2) = Ok v /\ expression_value se2_exp se2_log se2_scale env e = v.
Proof.
  destruct ride_exists as (g & c & Hs & Ec). pose proof Hs as [Hc _].
  assert (Hsz : (2 <= size (s_mgr c))%nat) by (rewrite contents_size, Ec; simpl; lia).
  assert (Em : min_time (s_mgr c) = 0) by (eapply contents_first; rewrite Ec; reflexivity).
  assert (EM : max_time (s_mgr c) = 3).
  { eapply (contents_max _ [_; _]); rewrite Ec; reflexivity. }
  destruct (proj1 (C77_defined _ _ _ se2_exp_log c (5 / 2) Hc)) as (e & Ee & _); [split; [exact Hsz|lra]|].
  set (T := Pose2 (rot_of 0) 5 0).
  destruct (C59_transform_semi_discrete twist2 se2_exp se2_log se2_scale g c T se2_exp_log Hs)
    as (c' & _ & [Hc' _] & Ek & _ & Ec' & _).
  set (env := fun k => match get_coefficient_by_key (s_mgr c') k with Ok x => x | _ => pose2_one end).
  assert (Et : get_times (s_mgr c') = get_times (s_mgr c)).
  { rewrite <- !contents_times, Ec', map_map. reflexivity. }
  assert (Henv : forall k x, get_coefficient_by_key (s_mgr c') k = Ok x -> env k = x).
  { intros k x E. unfold env. now rewrite E. }
  exists c, c', e, env, (expression_value se2_exp se2_log se2_scale env e).
  split; [exact Hc|]. split; [exact Hc'|]. split; [exact Et|]. split; [exact Ek|]. split.
  { rewrite Ec', Ec. intros X. apply (f_equal (fun l => match l with (_, p) :: _ => p2_x p | _ => 0 end)) in X.
    cbn in X. unfold turn_x in X. cbn in X. lra. }
  split; [exact Ee|]. split; [exact Henv|]. split; [|reflexivity].
  apply (C77_value _ _ _ se2_exp_log c c'); auto.
Qed.

Example C78_saved_example : exists c : se2_curve, consistent (s_mgr c) /\
  saved_rows se2_exp se2_log se2_scale (fun p => [p2_x p; p2_y p; heading (p2_rot p)]) c =
  Ok [(0, [0; 0; 0]); (2, [2; 0; 0]); (3, [3; 1; PI / 2])].
Proof.
  destruct ride_exists as (g & c & [Hc _] & Ec). exists c. split; [exact Hc|].
  rewrite (C78_saved _ _ _ se2_exp_log _ c Hc), Ec. pose proof PI_RGT_0. cbn [map ride fst snd p2_x p2_y p2_rot].
  now rewrite !heading_rot by lra.
Qed.
