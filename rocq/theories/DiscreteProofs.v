(** * Proofs about the discrete and semi-discrete curves, over the reals *)

From Coquelicot Require Import Coquelicot.
From Coq Require Import List Reals Lra Lia Bool Arith NArith ZArith Permutation Sorting.Sorted.
From Verif Require Import Base TimeOrder TimeInst KeyGen Manager ManagerSpec ManagerProofs ManagerProofs2
  ManagerProofs3 Num Sampling SamplingSpec SamplingProofs HermiteE3Proofs Discrete DiscreteSpec.
Import ListNotations.
Local Open Scope R_scope.

Lemma neqb_R (a b : R) : neqb a b = true <-> a = b.
Proof. simpl. rewrite andb_true_iff, !negb_true_iff, !Rltb_ge. lra. Qed.

Lemma neqb_R_false (a b : R) : neqb a b = false <-> a <> b.
Proof. rewrite <- neqb_R. destruct (neqb a b); split; congruence. Qed.

Section Piecewise.
Context {V : Type}.
Local Notation curve := (@slerp_curve R V).
Local Notation mgr := (mgr R V).

(** The value at the left end of a segment is the left coefficient. *)
Definition starts (mid : @middle R V) : Prop :=
  forall ta va tb vb, ta < tb -> mid ta va tb vb ta = va.

Lemma in_contents (m : mgr) t v : In (t, v) (contents m) ->
  exists n, In n (nodes m) /\ n_time n = t /\ n_coef n = v.
Proof.
  unfold contents. intros Hi. apply in_map_iff in Hi as (n & E & Hi). injection E as <- <-. eauto.
Qed.

Lemma contents_in (m : mgr) n : In n (nodes m) -> In (n_time n, n_coef n) (contents m).
Proof. intros Hi. unfold contents. now apply (in_map (fun n => (n_time n, n_coef n))). Qed.

Lemma contents_bounds (m : mgr) t v : consistent m -> In (t, v) (contents m) ->
  min_time m <= t <= max_time m.
Proof.
  intros Hc Hi. apply in_contents in Hi as (n & Hi & <- & _).
  pose proof (min_time_bound m n Hc Hi) as A. pose proof (max_time_bound m n Hc Hi) as B.
  now apply tle_R in A, B.
Qed.

Lemma contents_unique (m : mgr) t v v' :
  consistent m -> In (t, v) (contents m) -> In (t, v') (contents m) -> v = v'.
Proof.
  intros Hc Hi Hj. apply in_contents in Hi as (n & Hi & E & <-). apply in_contents in Hj as (n' & Hj & E' & <-).
  f_equal. apply (sorted_unique (nodes m) _ _ t (cons_sorted _ Hc) Hi Hj); apply teq_R; auto.
Qed.

Lemma contents_first (m : mgr) t v r : contents m = (t, v) :: r -> min_time m = t.
Proof. unfold contents, min_time. destruct (nodes m); simpl; [discriminate|]. now intros [= -> _ _]. Qed.

Lemma pw_between mid (c : curve) u ta va tb vb w t :
  consistent (s_mgr c) -> contents (s_mgr c) = u ++ (ta, va) :: (tb, vb) :: w -> ta < t < tb ->
  pw_evaluate mid c t = Ok (mid ta va tb vb t).
Proof.
  intros Hc E Ht.
  destruct (bracket_R _ _ _ _ _ _ _ t Hc E) as (Hne & n0 & n1 & Eg & Hn); [lra|].
  assert (Hm : tb <= max_time (s_mgr c)).
  { apply (contents_bounds _ tb vb Hc). rewrite E, in_app_iff. simpl. auto. }
  unfold pw_evaluate.
  destruct (neqb (max_time (s_mgr c)) t && neqb (min_time (s_mgr c)) t) eqn:Eb.
  { apply andb_true_iff in Eb as [A _]. apply neqb_R in A. lra. }
  destruct (neqb t (max_time (s_mgr c))) eqn:Ea; [apply neqb_R in Ea; lra|].
  rewrite Eg. destruct Hn as [(-> & -> & -> & -> & _)|(Hx & _)]; [reflexivity|lra].
Qed.

Lemma pw_at mid (c : curve) t v :
  starts mid -> consistent (s_mgr c) -> In (t, v) (contents (s_mgr c)) -> pw_evaluate mid c t = Ok v.
Proof.
  intros Hs Hc Hi. pose proof (contents_bounds _ _ _ Hc Hi) as Hb.
  apply in_split in Hi as (u & w & E). unfold pw_evaluate.
  destruct (neqb (max_time (s_mgr c)) t && neqb (min_time (s_mgr c)) t) eqn:Eb.
  { apply andb_true_iff in Eb as [A B]. apply neqb_R in A, B.
    destruct (nodes (s_mgr c)) as [|n r] eqn:En.
    { unfold contents in E. rewrite En in E. now apply app_cons_not_nil in E. }
    f_equal. assert (Hn : In (n_time n, n_coef n) (contents (s_mgr c))).
    { apply contents_in. rewrite En. now left. }
    assert (Et : n_time n = t).
    { unfold min_time in B. rewrite En in B. exact B. }
    rewrite Et in Hn. apply (contents_unique (s_mgr c) t _ _ Hc Hn). rewrite E, in_app_iff. simpl. auto. }
  destruct (neqb t (max_time (s_mgr c))) eqn:Ea.
  { apply neqb_R in Ea. destruct w as [|[t1 v1] w] using rev_ind.
    - destruct (contents_last _ _ _ _ E) as (n & -> & _ & _ & ->). reflexivity.
    - clear IHw. rewrite app_comm_cons, app_assoc in E.
      destruct (contents_last _ _ _ _ E) as (n & -> & Hn & En & Ev). f_equal.
      apply (contents_unique (s_mgr c) t _ _ Hc).
      + rewrite Ea. rewrite (contents_max _ _ _ _ E). rewrite <- En. now apply contents_in.
      + rewrite E, !in_app_iff. simpl. auto. }
  destruct w as [|[tb vb] w].
  { rewrite (contents_max _ _ _ _ E) in Ea. apply neqb_R_false in Ea. congruence. }
  pose proof (consistent_incr _ _ _ _ _ _ _ Hc E) as Hlt.
  destruct (bracket_R _ _ _ _ _ _ _ t Hc E) as (Hne & n0 & n1 & -> & Hn); [lra|].
  destruct Hn as [(-> & -> & -> & -> & _)|(Hx & _)]; [|lra]. f_equal. now apply Hs.
Qed.

Lemma pw_outside mid (c : curve) t :
  consistent (s_mgr c) -> contents (s_mgr c) <> [] ->
  t < min_time (s_mgr c) \/ max_time (s_mgr c) < t -> pw_evaluate mid c t = Abort.
Proof.
  intros Hc Hn Ht. unfold pw_evaluate.
  destruct (neqb (max_time (s_mgr c)) t && neqb (min_time (s_mgr c)) t) eqn:Eb.
  { apply andb_true_iff in Eb as [A B]. apply neqb_R in A, B. lra. }
  assert (Hmm : min_time (s_mgr c) <= max_time (s_mgr c)).
  { destruct (contents (s_mgr c)) as [|[t0 v0] r] eqn:E; [congruence|].
    assert (X : In (t0, v0) (contents (s_mgr c))) by (rewrite E; now left).
    pose proof (contents_bounds _ _ _ Hc X). lra. }
  destruct (neqb t (max_time (s_mgr c))) eqn:Ea; [apply neqb_R in Ea; lra|].
  destruct (get_coefficients_at (s_mgr c) t) as [p|] eqn:Eg; [|reflexivity].
  destruct (proj1 (get_at_domain (s_mgr c) t Hc)) as (_ & A & B); [eauto|]. apply tle_R in A, B. lra.
Qed.

Lemma pw_empty mid (c : curve) t : contents (s_mgr c) = [] ->
  pw_evaluate mid c t = if neqb t 0 then UB else Abort.
Proof.
  intros E. apply contents_nil in E. unfold pw_evaluate, max_time, min_time. rewrite E.
  change (last_node (@nil (node R V))) with (@None (node R V)). cbn iota beta zeta.
  change (tzero : R) with 0. unfold get_coefficients_at, empty. rewrite E.
  destruct (Req_dec t 0) as [->|X].
  - rewrite (proj2 (neqb_R 0 0) eq_refl). reflexivity.
  - rewrite (proj2 (neqb_R_false t 0) X), (proj2 (neqb_R_false 0 t)) by auto. reflexivity.
Qed.

(** A time in the range is a coefficient time or inside a segment. *)
Lemma pw_cases (m : mgr) t : consistent m -> contents m <> [] -> min_time m <= t <= max_time m ->
  (exists v, In (t, v) (contents m)) \/
  (exists u ta va tb vb w, contents m = u ++ (ta, va) :: (tb, vb) :: w /\ ta < t < tb).
Proof.
  intros Hc Hn Ht. destruct (contents m) as [|[t0 v0] r] eqn:E; [congruence|].
  destruct r as [|x r].
  - left. exists v0. rewrite (contents_first _ _ _ _ E), (contents_max m [] t0 v0 E) in Ht.
    left. f_equal. lra.
  - destruct (find_segment m t Hc) as (u & ta & ka & tb & kb & v & Ec & H0 & H1); auto.
    { rewrite contents_size, E. simpl. lia. }
    rewrite <- E. destruct (Req_dec ta t) as [->|Ha].
    { left. exists ka. rewrite Ec, in_app_iff. simpl. auto. }
    destruct H1 as [H1|[-> _]].
    + right. exists u, ta, ka, tb, kb, v. split; auto. lra.
    + left. exists kb. rewrite Ec, in_app_iff. simpl. auto.
Qed.

(** The result only depends on the coefficients, not on keys and the policy. *)
Lemma pw_ext mid (c c' : curve) t :
  consistent (s_mgr c) -> consistent (s_mgr c') -> starts mid ->
  contents (s_mgr c) = contents (s_mgr c') -> pw_evaluate mid c t = pw_evaluate mid c' t.
Proof.
  intros Hc Hc' Hs E. destruct (contents (s_mgr c)) as [|x r] eqn:Ec.
  { rewrite !pw_empty; auto. }
  assert (Em : min_time (s_mgr c) = min_time (s_mgr c')).
  { destruct x as [t0 v0]. rewrite (contents_first _ _ _ _ Ec). symmetry. apply (contents_first _ t0 v0 r).
    now rewrite <- E. }
  assert (EM : max_time (s_mgr c) = max_time (s_mgr c')).
  { rewrite <- !al_max_spec, Ec, <- E. reflexivity. }
  destruct (Rle_dec (min_time (s_mgr c)) t) as [A|A];
    [destruct (Rle_dec t (max_time (s_mgr c))) as [B|B]|].
  2,3: (rewrite !pw_outside; auto; try congruence; try lra; rewrite <- ?E; congruence).
  destruct (pw_cases (s_mgr c) t) as [(v & Hi)|(u & ta & va & tb & vb & w & Eu & Ht)]; auto; try congruence.
  - rewrite (pw_at mid c t v), (pw_at mid c' t v); auto. now rewrite <- E, <- Ec.
  - rewrite (pw_between mid c u ta va tb vb w t), (pw_between mid c' u ta va tb vb w t); auto.
    now rewrite <- E, <- Ec.
Qed.

(** Where the curve has a value. *)
Lemma pw_defined mid (c : curve) t :
  starts mid -> consistent (s_mgr c) -> contents (s_mgr c) <> [] ->
  min_time (s_mgr c) <= t <= max_time (s_mgr c) -> exists v, pw_evaluate mid c t = Ok v.
Proof.
  intros Hs Hc Hn Ht. destruct (pw_cases (s_mgr c) t Hc Hn Ht) as [(v & Hi)|(u & ta & va & tb & vb & w & Eu & H)].
  - exists v. now apply pw_at.
  - eexists. now apply (pw_between mid c u ta va tb vb w t).
Qed.

Lemma pw_ok_range mid (c : curve) t v :
  consistent (s_mgr c) -> pw_evaluate mid c t = Ok v ->
  contents (s_mgr c) <> [] /\ min_time (s_mgr c) <= t <= max_time (s_mgr c).
Proof.
  intros Hc E. assert (Hn : contents (s_mgr c) <> []).
  { intros X. rewrite (pw_empty mid c t X) in E. destruct (neqb t 0); discriminate. }
  split; auto. destruct (Rle_dec (min_time (s_mgr c)) t); [destruct (Rle_dec t (max_time (s_mgr c)))|]; try lra;
    rewrite pw_outside in E; auto; try discriminate; lra.
Qed.

Lemma nearer_starts : starts (@nearer R _ V).
Proof.
  intros ta va tb vb H. unfold nearer.
  replace (nleb (ta - ta)%num (tb - ta)%num) with true; auto.
  symmetry. simpl. apply Rleb_le. lra.
Qed.

(** ** Overwriting a coefficient *)

Lemma insert_over g (m : mgr) u t v w v' :
  sane g m -> contents m = u ++ (t, v) :: w ->
  exists m' k, insert_coefficient g m t v' = Ok (g, m', k) /\ sane g m' /\
    contents m' = u ++ (t, v') :: w /\ get_keys m' = get_keys m.
Proof.
  intros [Hc Hb] E. unfold insert_coefficient.
  assert (Ei : In (t, v) (contents m)) by (rewrite E, in_app_iff; simpl; auto).
  apply in_contents in Ei as (n0 & Hi0 & Et0 & _).
  destruct (scan_spec (nodes m) t (cons_sorted _ Hc)) as [(n & Hi & Et & ->) | [Hf _]].
  2:{ rewrite Forall_forall in Hf. specialize (Hf _ Hi0). rewrite Et0, teq_refl in Hf. discriminate. }
  destruct (update_ok m (n_key n) v' Hc) as (n' & Hn' & Ek & Eu); [now apply in_map|].
  apply (key_unique _ _ _ Hc Hn' Hi) in Ek. subst n'. rewrite Eu. simpl.
  eexists _, _. split; [reflexivity|]. split; [split|split].
  - now apply consistent_set_coef.
  - unfold keys_below, get_keys in *. simpl. now rewrite set_coef_keys.
  - apply in_split in Hi as (a & b & El).
    assert (Ent : n_time n = t) by (now apply teq_R).
    pose proof (contents_set_coef m a n b v' Hc El) as X.
    change (map tc (set_coef (n_id n) v' (nodes m)) = u ++ (t, v') :: w). rewrite X.
    assert (Y : contents m = map tc a ++ (t, n_coef n) :: map tc b).
    { unfold contents. rewrite El, map_app. simpl. now rewrite Ent. }
    rewrite E in Y. rewrite Ent.
    assert (Z : u = map tc a /\ w = map tc b).
    { pose proof (c_sorted _ Hc) as Hs. rewrite <- contents_times, E, map_app in Hs. simpl in Hs.
      clear - Y Hs. revert Y Hs. generalize (map tc a) as p, (map tc b) as q. clear a b.
      intros p q. revert p. induction u as [|x u IH]; intros [|y p] Y Hs; simpl in *.
      - now injection Y as _ ->.
      - injection Y as <- ->. simpl in Hs. inversion Hs as [|? ? _ Hf]; subst.
        rewrite map_app, Forall_app in Hf. destruct Hf as [_ Hf]. simpl in Hf. inversion Hf as [|? ? Hx _]; subst.
        unfold t_lt in Hx. apply tlt_R in Hx. lra.
      - injection Y as -> _. inversion Hs as [|? ? _ Hf]; subst.
        rewrite Forall_app in Hf. destruct Hf as [_ Hf]. simpl in Hf. inversion Hf as [|? ? Hx _]; subst.
        unfold t_lt in Hx. apply tlt_R in Hx. simpl in Hx. lra.
      - injection Y as -> Y. inversion Hs as [|? ? Hs' _]; subst. destruct (IH p Y Hs') as [-> ->]. auto. }
    destruct Z as [-> ->]. reflexivity.
  - unfold get_keys. simpl. now rewrite set_coef_keys.
Qed.

(** ** Transforming the curve *)

Definition moved_by `{GroupOps V} (T : V) (x : R * V) : R * V := (fst x, gmul T (snd x)).

Lemma transform_spec `{GroupOps V} mid g (c : curve) T :
  starts mid -> sane g (s_mgr c) ->
  exists c', pw_transform mid g c T = Ok (g, c') /\ sane g (s_mgr c') /\ s_pol c' = s_pol c /\
    get_keys (s_mgr c') = get_keys (s_mgr c) /\
    contents (s_mgr c') = map (moved_by T) (contents (s_mgr c)).
Proof.
  intros Hst Hs. unfold pw_transform, curve_transform. rewrite <- contents_times.
  assert (X : forall w u c0, sane g (s_mgr c0) -> contents (s_mgr c0) = map (moved_by T) u ++ w ->
    exists c', foldM (fun s t => let '(g, c) := s in
        let* v := pw_evaluate mid c t in
        let* (g', m', _) := insert_coefficient g (s_mgr c) t (gmul T v) in
        Ok (g', Slerp m' (s_pol c))) (map fst w) (g, c0) = Ok (g, c') /\
      sane g (s_mgr c') /\ s_pol c' = s_pol c0 /\ get_keys (s_mgr c') = get_keys (s_mgr c0) /\
      contents (s_mgr c') = map (moved_by T) (u ++ w)).
  { induction w as [|[t v] w IH]; intros u c0 Hs0 E0.
    - exists c0. rewrite app_nil_r in E0 |- *. simpl. auto.
    - assert (Ev : pw_evaluate mid c0 t = Ok v).
      { apply pw_at; auto; [apply Hs0|]. rewrite E0, in_app_iff. simpl. auto. }
      destruct (insert_over g (s_mgr c0) _ t v w (gmul T v) Hs0 E0) as (m' & k & Ei & Hs' & Ec & Ek).
      destruct (IH (u ++ [(t, v)]) (Slerp m' (s_pol c0))) as (c' & E & A & B & D & F).
      { exact Hs'. }
      { simpl. rewrite Ec, map_app, <- app_assoc. reflexivity. }
      exists c'. split.
      { cbn [map foldM fst]. rewrite Ev. cbn [bind]. rewrite Ei. cbn [bind]. exact E. }
      split; [exact A|]. split; [exact B|]. split; [rewrite D; exact Ek|].
      rewrite F, <- app_assoc. reflexivity. }
  destruct (X (contents (s_mgr c)) [] c Hs eq_refl) as (c' & E & A & B & D & F). eauto 10.
Qed.

Lemma transform_evaluate `{GroupOps V} mid (c c' : curve) T :
  starts mid -> consistent (s_mgr c) -> consistent (s_mgr c') ->
  (forall ta va tb vb t, mid ta (gmul T va) tb (gmul T vb) t = gmul T (mid ta va tb vb t)) ->
  contents (s_mgr c') = map (moved_by T) (contents (s_mgr c)) ->
  forall t, pw_evaluate mid c' t = omap (gmul T) (pw_evaluate mid c t).
Proof.
  intros Hst Hc Hc' Hm E t. destruct (contents (s_mgr c)) as [|[t0 v0] r] eqn:Ec.
  { rewrite !pw_empty by auto. now destruct (neqb t 0). }
  assert (Em : min_time (s_mgr c) = min_time (s_mgr c')).
  { rewrite (contents_first _ _ _ _ Ec). symmetry. apply (contents_first _ t0 (gmul T v0) (map (moved_by T) r)).
    now rewrite E. }
  assert (EM : max_time (s_mgr c) = max_time (s_mgr c')).
  { rewrite <- !al_max_spec, Ec, E. unfold al_max. now rewrite map_map. }
  destruct (Rle_dec (min_time (s_mgr c)) t) as [A|A];
    [destruct (Rle_dec t (max_time (s_mgr c))) as [B|B]|].
  2,3: (rewrite !pw_outside; auto; try congruence; try lra; rewrite E; discriminate).
  destruct (pw_cases (s_mgr c) t) as [(v & Hi)|(u & ta & va & tb & vb & w & Eu & Ht)]; auto; try congruence.
  - rewrite (pw_at mid c t v), (pw_at mid c' t (gmul T v)); auto. rewrite E, <- Ec.
    apply (in_map (moved_by T)) in Hi. exact Hi.
  - rewrite (pw_between mid c u ta va tb vb w t) by auto.
    rewrite (pw_between mid c' (map (moved_by T) u) ta (gmul T va) tb (gmul T vb) (map (moved_by T) w) t); auto.
    + simpl. now rewrite Hm.
    + rewrite E, <- Ec, Eu, map_app. reflexivity.
Qed.

End Piecewise.

(** ** Groups *)

Section Group.
Context {V : Type} `{GroupLaws V}.

Lemma ginv_r (a : V) : gmul a (ginv a) = gone.
Proof.
  rewrite <- (gone_l (gmul a (ginv a))), <- (ginv_l (ginv a)), <- gmul_assoc.
  rewrite (gmul_assoc (ginv a) a), ginv_l, gone_l. reflexivity.
Qed.

Lemma gone_r (a : V) : gmul a gone = a.
Proof. rewrite <- (ginv_l a), gmul_assoc, ginv_r, gone_l. reflexivity. Qed.

Lemma gmul_cancel (a b c : V) : gmul a b = gmul a c -> b = c.
Proof.
  intros E. rewrite <- (gone_l b), <- (gone_l c), <- (ginv_l a), <- !gmul_assoc, E. reflexivity.
Qed.

Lemma ginv_gmul (a b : V) : ginv (gmul a b) = gmul (ginv b) (ginv a).
Proof.
  apply (gmul_cancel (gmul a b)). rewrite ginv_r, <- gmul_assoc, (gmul_assoc b), ginv_r, gone_l, ginv_r.
  reflexivity.
Qed.

Lemma ginv_cancel (a b : V) : gmul a (gmul (ginv a) b) = b.
Proof. now rewrite gmul_assoc, ginv_r, gone_l. Qed.

Section Exp.
Context {W : Type} (vexp : W -> V) (vlog : V -> W) (vscale : W -> R -> W).
Hypothesis Hel : exp_log vexp vlog vscale.

Lemma el_zero w : vexp (vscale w 0) = gone.
Proof.
  apply (gmul_cancel (vexp (vscale w 0))). rewrite gone_r, <- (el_add _ _ _ Hel). f_equal. f_equal. lra.
Qed.

Lemma blended_starts : starts (blended vexp vlog vscale).
Proof.
  intros ta va tb vb Hlt. unfold blended. numR. replace ((ta - ta) / (tb - ta)) with 0 by (field; lra).
  now rewrite el_zero, gone_r.
Qed.

Lemma blended_ends ta va tb vb : ta < tb -> blended vexp vlog vscale ta va tb vb tb = vb.
Proof.
  intros Hlt. unfold blended. numR. replace ((tb - ta) / (tb - ta)) with 1 by (field; lra).
  now rewrite (el_inverse _ _ _ Hel), ginv_cancel.
Qed.

Lemma blended_const ta v tb t : blended vexp vlog vscale ta v tb v t = v.
Proof. unfold blended. now rewrite ginv_l, (el_one _ _ _ Hel), gone_r. Qed.

End Exp.

Lemma blended_left {W} (vexp : W -> V) (vlog : V -> W) (vscale : W -> R -> W) T ta va tb vb t :
  blended vexp vlog vscale ta (gmul T va) tb (gmul T vb) t = gmul T (blended vexp vlog vscale ta va tb vb t).
Proof.
  unfold blended. rewrite ginv_gmul, <- (gmul_assoc (ginv va)), (gmul_assoc (ginv T)), ginv_l, gone_l.
  now rewrite <- gmul_assoc.
Qed.

End Group.

Lemma nearer_left {V} `{GroupOps V} (T : V) (ta : R) va tb vb t :
  nearer ta (gmul T va) tb (gmul T vb) t = gmul T (nearer ta va tb vb t).
Proof. unfold nearer. now destruct (nleb _ _). Qed.

Lemma nearer_const {V} (ta : R) (v : V) tb t : nearer ta v tb v t = v.
Proof. unfold nearer. now destruct (nleb _ _). Qed.
