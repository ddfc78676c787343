(** * Properties of the discrete and semi-discrete curves *)

From Coquelicot Require Import Coquelicot.
From Coq Require Import List Reals Lra Lia Bool Arith NArith ZArith Permutation Sorting.Sorted.
From Verif Require Import Base TimeOrder TimeInst KeyGen Manager ManagerSpec ManagerProofs ManagerProofs2
  ManagerProofs3 Num Sampling SamplingSpec SamplingProofs HermiteE3Proofs Discrete DiscreteSpec DiscreteProofs.
Import ListNotations.
Local Open Scope R_scope.

Section Discrete.
Context {V : Type}.
Local Notation curve := (@slerp_curve R V).

Lemma split_bounds (m : mgr R V) u ta va tb vb w t' v' :
  consistent m -> contents m = u ++ (ta, va) :: (tb, vb) :: w -> In (t', v') (contents m) ->
  t' < ta \/ (t' = ta /\ v' = va) \/ (t' = tb /\ v' = vb) \/ tb < t'.
Proof.
  intros Hc E Hi. pose proof (c_sorted _ Hc) as Hs. rewrite <- contents_times, E, map_app in Hs. simpl in Hs.
  rewrite E, in_app_iff in Hi. destruct Hi as [Hi|[Hi|[Hi|Hi]]].
  - left. apply (ssorted_app _ (map fst u)) in Hs as (_ & _ & Hf). rewrite Forall_forall in Hf.
    specialize (Hf t' (in_map fst _ _ Hi)). inversion Hf as [|? ? Hx _]; subst.
    now apply tlt_R.
  - injection Hi as -> ->. auto.
  - injection Hi as -> ->. auto.
  - right. right. right. apply (ssorted_app _ (map fst u)) in Hs as (_ & Hs & _).
    inversion Hs as [|? ? Hs' _]; subst. inversion Hs' as [|? ? _ Hf]; subst.
    rewrite Forall_forall in Hf. apply tlt_R. exact (Hf t' (in_map fst _ _ Hi)).
Qed.

Lemma nearest_unique (m : mgr R V) t v v' :
  consistent m -> nearest (contents m) t v -> nearest (contents m) t v' -> v = v'.
Proof.
  intros Hc (a & Ha & Na) (b & Hb & Nb). destruct (Na _ _ Hb) as [A1 A2]. destruct (Nb _ _ Ha) as [B1 B2].
  assert (a = b) as <- by lra. exact (contents_unique _ _ _ _ Hc Ha Hb).
Qed.

(** ** C49: the value at [t] is that of the coefficient nearest to [t]. *)
Theorem C49_nearest : forall (c : curve) (t : R),
  consistent (s_mgr c) -> contents (s_mgr c) <> [] -> min_time (s_mgr c) <= t <= max_time (s_mgr c) ->
  exists v, disc_evaluate c t = Ok v /\
    forall v', nearest (contents (s_mgr c)) t v' <-> v' = v.
Proof.
  intros c t Hc Hn Ht.
  assert (X : exists v, disc_evaluate c t = Ok v /\ nearest (contents (s_mgr c)) t v).
  { destruct (pw_cases (s_mgr c) t Hc Hn Ht) as [(v & Hi)|(u & ta & va & tb & vb & w & Eu & H)].
    - exists v. split; [apply pw_at; auto; apply nearer_starts|].
      exists t. split; auto. intros t' v' Hi'. replace (t - t) with 0 by lra. rewrite Rabs_R0.
      split; [apply Rabs_pos|]. intros E. symmetry in E. destruct (Req_dec (t - t') 0) as [X|X]; [lra|].
      now apply Rabs_no_R0 in X.
    - exists (nearer ta va tb vb t). split; [now apply (pw_between nearer c u ta va tb vb w t)|].
      unfold nearer. numR.
      destruct (negb (Rltb (tb - t) (t - ta))) eqn:E.
      + apply Rleb_le in E. exists ta. split; [rewrite Eu, in_app_iff; simpl; auto|].
        intros t' v' Hi. rewrite (Rabs_pos_eq (t - ta)) by lra.
        destruct (split_bounds _ _ _ _ _ _ _ _ _ Hc Eu Hi) as [X|[[X _]|[[X _]|X]]].
        * rewrite Rabs_pos_eq by lra. lra.
        * subst t'. rewrite Rabs_pos_eq by lra. lra.
        * subst t'. rewrite Rabs_left by lra. lra.
        * rewrite Rabs_left by lra. lra.
      + apply negb_false_iff, Rltb_lt in E. exists tb. split; [rewrite Eu, in_app_iff; simpl; auto|].
        intros t' v' Hi. rewrite (Rabs_left (t - tb)) by lra.
        destruct (split_bounds _ _ _ _ _ _ _ _ _ Hc Eu Hi) as [X|[[X _]|[[X _]|X]]].
        * rewrite Rabs_pos_eq by lra. lra.
        * subst t'. rewrite Rabs_pos_eq by lra. lra.
        * subst t'. rewrite Rabs_left by lra. lra.
        * rewrite Rabs_left by lra. lra. }
  destruct X as (v & E & Nv). exists v. split; auto. intros v'. split; [|intros ->; auto].
  intros N'. exact (nearest_unique _ _ _ _ Hc N' Nv).
Qed.

Theorem C49_at_coefficient : forall (c : curve) (t : R) v,
  consistent (s_mgr c) -> In (t, v) (contents (s_mgr c)) -> disc_evaluate c t = Ok v.
Proof. intros c t v Hc Hi. apply pw_at; auto. apply nearer_starts. Qed.

(** Without a coefficient nothing can be evaluated, and time 0 (which is what
    getMinTime and getMaxTime report) dereferences end(). *)
Theorem C49_outside : forall (c : curve) (t : R), consistent (s_mgr c) ->
  (contents (s_mgr c) <> [] -> t < min_time (s_mgr c) \/ max_time (s_mgr c) < t -> disc_evaluate c t = Abort) /\
  (contents (s_mgr c) = [] -> t <> 0 -> disc_evaluate c t = Abort) /\
  (contents (s_mgr c) = [] -> disc_evaluate c 0 = UB).
Proof.
  intros c t Hc. split; [|split].
  - intros Hn Ht. now apply pw_outside.
  - intros Hn Ht. unfold disc_evaluate. rewrite pw_empty by auto. now rewrite (proj2 (neqb_R_false t 0) Ht).
  - intros Hn. unfold disc_evaluate. rewrite pw_empty by auto. now rewrite (proj2 (neqb_R 0 0) eq_refl).
Qed.

(** ** C61: the expression of a discrete curve names the coefficient that
    evaluation returns. *)
Theorem C61_discrete_expression : forall (c : curve) (t : R) v,
  consistent (s_mgr c) -> (2 <= size (s_mgr c))%nat -> disc_evaluate c t = Ok v ->
  exists k, value_expression c t = Ok k /\ get_coefficient_by_key (s_mgr c) k = Ok v.
Proof.
  intros c t v Hc Hsz E. destruct (pw_ok_range _ _ _ _ Hc E) as [Hn Ht].
  destruct (proj2 (get_at_domain (s_mgr c) t Hc)) as [[n0 n1] Eg]; [rewrite !tle_R; tauto|].
  destruct (get_at_some _ t n0 n1 Hc Eg) as (a & b & En & H0 & H1). apply tle_R in H0.
  assert (I0 : In n0 (nodes (s_mgr c))) by (rewrite En, in_app_iff; simpl; auto).
  assert (I1 : In n1 (nodes (s_mgr c))) by (rewrite En, in_app_iff; simpl; auto).
  unfold value_expression. rewrite Eg. eexists. split; [reflexivity|].
  assert (H01 : n_time n0 < n_time n1).
  { pose proof (cons_sorted _ Hc) as Hs. rewrite En in Hs. apply sorted_split in Hs as [_ Hb].
    inversion Hb; subst. now apply tlt_R. }
  unfold disc_evaluate, pw_evaluate in E.
  destruct (neqb (max_time (s_mgr c)) t && neqb (min_time (s_mgr c)) t) eqn:Eb.
  { exfalso. apply andb_true_iff in Eb as [A B]. apply neqb_R in A, B.
    pose proof (contents_bounds _ _ _ Hc (contents_in _ _ I0)).
    pose proof (contents_bounds _ _ _ Hc (contents_in _ _ I1)). lra. }
  destruct (neqb t (max_time (s_mgr c))) eqn:Ea.
  - apply neqb_R in Ea.
    assert (X : n_time n1 = t).
    { pose proof (contents_bounds _ _ _ Hc (contents_in _ _ I1)).
      destruct H1 as [H1|[_ H1]]; [apply tlt_R in H1|apply teq_R in H1]; lra. }
    destruct (last_node (nodes (s_mgr c))) as [n|] eqn:El; [|discriminate].
    assert (Hl : n = n1).
    { destruct (nodes (s_mgr c)) as [|y r _] eqn:Er using rev_ind; [discriminate|].
      rewrite last_node_app in El. injection El as ->. rewrite <- Er in *.
      apply (sorted_unique (nodes (s_mgr c)) n n1 t (cons_sorted _ Hc)); auto.
      - rewrite Er, in_app_iff. simpl. auto.
      - apply teq_R. rewrite Ea. symmetry. now apply (max_time_app (s_mgr c) r n).
      - now apply teq_R. }
    subst n. injection E as <-. numR.
    replace (negb (Rltb (n_time n1 - t) (t - n_time n0))) with false.
    + now apply get_by_key_ok.
    + symmetry. apply negb_false_iff, Rltb_lt. lra.
  - rewrite Eg in E. injection E as <-. unfold nearer. destruct (nleb _ _); now apply get_by_key_ok.
Qed.

(** With one coefficient evaluation works and the expression does not exist. *)
Theorem C61_single_coefficient : forall (c : curve) (t : R) v,
  contents (s_mgr c) = [(t, v)] -> disc_evaluate c t = Ok v /\ value_expression c t = Abort.
Proof.
  intros c t v E. unfold contents in E. destruct (nodes (s_mgr c)) as [|n [|? ?]] eqn:En; try discriminate.
  simpl in E. injection E as <- <-. split.
  - unfold disc_evaluate, pw_evaluate, max_time, min_time. rewrite En.
    change (last_node [n]) with (Some n). cbn iota beta zeta.
    rewrite (proj2 (neqb_R (n_time n) (n_time n)) eq_refl). reflexivity.
  - unfold value_expression, get_coefficients_at, max_time, empty. rewrite En. cbn -[teq].
    replace (teq (n_time n) (n_time n)) with true by (symmetry; now apply teq_R). reflexivity.
Qed.

End Discrete.

(** ** C59: transformCurve *)

Section Transform.
Context {V : Type} `{GroupLaws V}.
Local Notation curve := (@slerp_curve R V).

Theorem C59_transform_discrete : forall g (c : curve) T, sane g (s_mgr c) ->
  exists c', pw_transform nearer g c T = Ok (g, c') /\ sane g (s_mgr c') /\
    get_keys (s_mgr c') = get_keys (s_mgr c) /\ s_pol c' = s_pol c /\
    contents (s_mgr c') = map (fun x => (fst x, gmul T (snd x))) (contents (s_mgr c)) /\
    forall t, disc_evaluate c' t = omap (gmul T) (disc_evaluate c t).
Proof.
  intros g c T Hs.
  destruct (transform_spec nearer g c T nearer_starts Hs) as (c' & E & Hs' & Ep & Ek & Ec).
  exists c'. do 5 (split; [assumption|]). intros t.
  apply transform_evaluate; auto; [apply nearer_starts|apply Hs|apply Hs'|apply nearer_left].
Qed.

Theorem C59_transform_semi_discrete : forall W (vexp : W -> V) vlog vscale g (c : curve) T,
  exp_log vexp vlog vscale -> sane g (s_mgr c) ->
  exists c', pw_transform (blended vexp vlog vscale) g c T = Ok (g, c') /\ sane g (s_mgr c') /\
    get_keys (s_mgr c') = get_keys (s_mgr c) /\ s_pol c' = s_pol c /\
    contents (s_mgr c') = map (fun x => (fst x, gmul T (snd x))) (contents (s_mgr c)) /\
    forall t, semi_evaluate vexp vlog vscale c' t = omap (gmul T) (semi_evaluate vexp vlog vscale c t).
Proof.
  intros W vexp vlog vscale g c T Hel Hs. pose proof (blended_starts _ _ _ Hel) as Hb.
  destruct (transform_spec _ g c T Hb Hs) as (c' & E & Hs' & Ep & Ek & Ec).
  exists c'. do 5 (split; [assumption|]). intros t.
  apply transform_evaluate; auto; [apply Hs|apply Hs'|]. intros. apply blended_left.
Qed.

(** ** C60: the semi-discrete curve *)

Section Semi.
Context {W : Type} (vexp : W -> V) (vlog : V -> W) (vscale : W -> R -> W).

(** It passes through the data, and exists exactly on the range of the data. *)
Theorem C60_at_coefficient : forall (c : curve) (t : R) v, exp_log vexp vlog vscale ->
  consistent (s_mgr c) -> In (t, v) (contents (s_mgr c)) -> semi_evaluate vexp vlog vscale c t = Ok v.
Proof. intros c t v Hel Hc Hi. apply pw_at; auto. now apply blended_starts. Qed.

Theorem C60_range : forall (c : curve) (t : R), exp_log vexp vlog vscale ->
  consistent (s_mgr c) -> contents (s_mgr c) <> [] ->
  (min_time (s_mgr c) <= t <= max_time (s_mgr c) -> exists v, semi_evaluate vexp vlog vscale c t = Ok v) /\
  (t < min_time (s_mgr c) \/ max_time (s_mgr c) < t -> semi_evaluate vexp vlog vscale c t = Abort).
Proof.
  intros c t Hel Hc Hn. split; intros Ht.
  - apply pw_defined; auto. now apply blended_starts.
  - now apply pw_outside.
Qed.

(** Between two coefficients, equal times make equal motions: the motion from
    time [s] to [t] is the one-parameter subgroup of the motion between the two
    coefficients, at the fraction of time. *)
Theorem C60_equal_steps : forall (c : curve) u ta va tb vb w (s t : R) p q,
  exp_log vexp vlog vscale -> consistent (s_mgr c) ->
  contents (s_mgr c) = u ++ (ta, va) :: (tb, vb) :: w -> ta <= s <= tb -> ta <= t <= tb ->
  semi_evaluate vexp vlog vscale c s = Ok p -> semi_evaluate vexp vlog vscale c t = Ok q ->
  gmul (ginv p) q = vexp (vscale (vlog (gmul (ginv va) vb)) ((t - s) / (tb - ta))).
Proof.
  intros c u ta va tb vb w s t p q Hel Hc E Hs Ht Ep Eq.
  pose proof (consistent_incr _ _ _ _ _ _ _ Hc E) as Hlt.
  assert (X : forall r x, ta <= r <= tb -> semi_evaluate vexp vlog vscale c r = Ok x ->
    x = gmul va (vexp (vscale (vlog (gmul (ginv va) vb)) ((r - ta) / (tb - ta))))).
  { intros r x Hr Ex.
    assert (Ia : In (ta, va) (contents (s_mgr c))) by (rewrite E, in_app_iff; simpl; auto).
    assert (Ib : In (tb, vb) (contents (s_mgr c))) by (rewrite E, in_app_iff; simpl; auto).
    change (x = blended vexp vlog vscale ta va tb vb r).
    destruct (Req_dec r ta) as [->|Ha]; [|destruct (Req_dec r tb) as [->|Hb]].
    - rewrite (C60_at_coefficient c ta va Hel Hc Ia) in Ex. injection Ex as <-. symmetry. now apply blended_starts.
    - rewrite (C60_at_coefficient c tb vb Hel Hc Ib) in Ex. injection Ex as <-. symmetry. now apply blended_ends.
    - unfold semi_evaluate in Ex. rewrite (pw_between _ c u ta va tb vb w r) in Ex by (auto; lra).
      congruence. }
  apply X in Ep; auto. apply X in Eq; auto. subst p q.
  replace ((t - ta) / (tb - ta)) with ((s - ta) / (tb - ta) + (t - s) / (tb - ta)) by (field; lra).
  rewrite (el_add _ _ _ Hel), ginv_gmul.
  rewrite <- (gmul_assoc (ginv (vexp _)) (ginv va)), (gmul_assoc (ginv va) va), ginv_l, gone_l.
  now rewrite gmul_assoc, ginv_l, gone_l.
Qed.

(** Equal data give a constant curve. *)
Theorem C60_constant : forall (c : curve) v (t : R), exp_log vexp vlog vscale ->
  consistent (s_mgr c) -> contents (s_mgr c) <> [] -> (forall x, In x (contents (s_mgr c)) -> snd x = v) ->
  min_time (s_mgr c) <= t <= max_time (s_mgr c) -> semi_evaluate vexp vlog vscale c t = Ok v.
Proof.
  intros c v t Hel Hc Hn Hv Ht.
  destruct (pw_cases (s_mgr c) t Hc Hn Ht) as [(v' & Hi)|(u & ta & va & tb & vb & w & Eu & H1)].
  - rewrite (C60_at_coefficient c t v'); auto. f_equal. exact (Hv _ Hi).
  - unfold semi_evaluate. rewrite (pw_between _ c u ta va tb vb w t) by auto. f_equal.
    assert (va = v) as ->. { apply (Hv (ta, va)). rewrite Eu, in_app_iff. simpl. auto. }
    assert (vb = v) as ->. { apply (Hv (tb, vb)). rewrite Eu, in_app_iff. simpl. auto. }
    now apply blended_const.
Qed.

End Semi.
End Transform.

(** ** Examples *)

Section Examples.

(** Translations along a line. *)
Instance R_GroupOps : GroupOps R := { gone := 0; gmul := Rplus; ginv := Ropp }.
Instance R_GroupLaws : GroupLaws R.
Proof. split; simpl; intros; lra. Qed.

Definition id_R (x : R) : R := x.

Lemma R_exp_log : exp_log id_R id_R Rmult.
Proof. split; unfold id_R; simpl; intros; lra. Qed.

Lemma combine_fst_snd {A B} (l : list (A * B)) : combine (map fst l) (map snd l) = l.
Proof. induction l as [|[a b] l IH]; simpl; auto. now rewrite IH. Qed.

Lemma curve_exists {V} (l : list (R * V)) p : increasing l -> (N.of_nat (length l) < key_mod)%N ->
  exists g (c : @slerp_curve R V), g = N.of_nat (length l) /\ sane g (s_mgr c) /\ contents (s_mgr c) = l /\ s_pol c = p.
Proof.
  intros Hi Hg.
  destruct (insert_coefficients_end (map fst l) (map snd l) 0%N (mgr_empty : mgr R V) [])
    as (m' & ks & _ & Hs & Ec & _).
  - split; [apply consistent_empty|constructor].
  - now rewrite !map_length.
  - rewrite map_length. lia.
  - simpl. rewrite combine_fst_snd. exact Hi.
  - simpl in Ec. rewrite combine_fst_snd in Ec. rewrite map_length in Hs.
    exists (N.of_nat (length l)), (Slerp m' p). auto.
Qed.

Lemma two_increasing {V} (a b : R) (v w : V) : a < b -> increasing [(a, v); (b, w)].
Proof. intros E. simpl. repeat split; auto. now apply Rltb_lt. Qed.

(** Coefficients 10 at time 0 and 20 at time 2: the value at time 1 is 10 (the
    earlier one of two equally near ones), at 3/2 it is 20. *)
Example C49_example : exists c : @slerp_curve R R,
  consistent (s_mgr c) /\ contents (s_mgr c) = [(0, 10); (2, 20)] /\
  disc_evaluate c 1 = Ok 10 /\ disc_evaluate c (3 / 2) = Ok 20 /\ disc_evaluate c 2 = Ok 20 /\
  disc_evaluate c 3 = Abort.
Proof.
  destruct (curve_exists [(0, 10); (2, 20)] policy_default) as (g & c & _ & [Hc _] & Ec & _);
    [apply two_increasing; lra|reflexivity|].
  exists c. split; auto. split; auto.
  unfold disc_evaluate. rewrite !(pw_between nearer c [] 0 10 2 20 []) by (auto; lra).
  unfold nearer. numR. replace (Rltb (2 - 1) (1 - 0)) with false by (symmetry; apply Rltb_ge; lra).
  replace (Rltb (2 - 3 / 2) (3 / 2 - 0)) with true by (symmetry; apply Rltb_lt; lra).
  split; [reflexivity|]. split; [reflexivity|]. split.
  - apply pw_at; auto; [apply nearer_starts|]. rewrite Ec. simpl. auto.
  - apply pw_outside; auto; [rewrite Ec; discriminate|]. right.
    rewrite (contents_max (s_mgr c) [(0, 10)] 2 20 Ec). lra.
Qed.

(** The hypotheses of the theorems about the semi-discrete curve, and a value. *)
Example C60_example : exists (g : N) (c : @slerp_curve R R),
  exp_log id_R id_R Rmult /\ sane g (s_mgr c) /\ contents (s_mgr c) = [(0, 10); (2, 20)] /\
  semi_evaluate id_R id_R Rmult c (1 / 2) = Ok (10 + (- 10 + 20) * ((1 / 2 - 0) / (2 - 0))).
Proof.
  destruct (curve_exists [(0, 10); (2, 20)] policy_default) as (g & c & _ & Hs & Ec & _);
    [apply two_increasing; lra|reflexivity|].
  exists g, c. split; [apply R_exp_log|]. split; auto. split; auto.
  unfold semi_evaluate. rewrite (pw_between _ c [] 0 10 2 20 []); [reflexivity|apply Hs|auto|lra].
Qed.

(** One coefficient. *)
Example C61_example : exists c : @slerp_curve R R,
  consistent (s_mgr c) /\ contents (s_mgr c) = [(5, 10)] /\ value_expression c 5 = Abort.
Proof.
  destruct (curve_exists [(5, 10)] policy_default) as (g & c & _ & [Hc _] & Ec & _);
    [simpl; auto|reflexivity|].
  exists c. split; [exact Hc|]. split; [exact Ec|]. now apply (C61_single_coefficient c 5 10).
Qed.

(** ** C61, the semi-discrete curve: its expression is that of the discrete
    curve, so it does not stand for the value evaluate returns. *)
Theorem C61_semi_discrete_refuted :
  exists (vexp : R -> R) (vlog : R -> R) vscale (c : @slerp_curve R R) (t : R) k v v',
    exp_log vexp vlog vscale /\ consistent (s_mgr c) /\ (2 <= size (s_mgr c))%nat /\
    semi_evaluate vexp vlog vscale c t = Ok v /\
    value_expression c t = Ok k /\ get_coefficient_by_key (s_mgr c) k = Ok v' /\ v <> v'.
Proof.
  destruct (curve_exists [(0, 10); (2, 20)] policy_default) as (g & c & _ & Hs & Ec & _);
    [apply two_increasing; lra|reflexivity|].
  assert (Hsz : (2 <= size (s_mgr c))%nat) by (rewrite contents_size, Ec; auto).
  assert (Ed : disc_evaluate c 1 = Ok 10).
  { unfold disc_evaluate. rewrite (pw_between nearer c [] 0 10 2 20 []); [|apply Hs|auto|lra].
    unfold nearer. numR. now replace (Rltb (2 - 1) (1 - 0)) with false by (symmetry; apply Rltb_ge; lra). }
  destruct (C61_discrete_expression c 1 10 (proj1 Hs) Hsz Ed) as (k & Ek & Ev).
  exists id_R, id_R, Rmult, c, 1, k, 15, 10. split; [apply R_exp_log|]. split; [apply Hs|]. split; [exact Hsz|].
  split; [|split; [exact Ek|split; [exact Ev|lra]]].
  unfold semi_evaluate. rewrite (pw_between _ c [] 0 10 2 20 []); [|apply Hs|auto|lra].
  f_equal. unfold blended, id_R. simpl. lra.
Qed.

End Examples.
