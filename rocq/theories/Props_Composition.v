(** * Properties of the composition curve *)

From Coquelicot Require Import Coquelicot.
From Coq Require Import List Reals Lra Lia Bool Arith NArith ZArith QArith Permutation Sorting.Sorted.
From Verif Require Import Base TimeOrder TimeInst KeyGen Manager ManagerSpec ManagerProofs ManagerProofs2
  ManagerProofs3 Num Sampling SamplingSpec SamplingProofs HermiteE3Proofs Discrete DiscreteSpec DiscreteProofs
  Props_Discrete Composition CompositionProofs.
Import ListNotations.
Local Open Scope R_scope.

Section Composition.
Context {V : Type} `{GroupLaws V}.
Local Notation curve := (@slerp_curve R V).
Local Notation comp := (comp R V).

(** The two curves are discrete or semi-discrete, or any curves that return the
    left coefficient at the start of a segment. *)
Variables mb mc : @middle R V.
Hypothesis Hmb : starts mb.
Hypothesis Hmc : starts mc.
Local Notation eb := (pw_evaluate mb).
Local Notation ec := (pw_evaluate mc).

Lemma cover_gen g (k k' : curve) a b g' :
  (g + 6 < key_mod)%N -> comp_cover ec g k a b = Ok (g', k') -> (g <= g' <= g + 6)%N.
Proof.
  intros Hg E. unfold comp_cover in E. apply bind_ok_inv in E as ([[[g1 k1] ts1] vs1] & E1 & E).
  apply bind_ok_inv in E as ([[[g2 k2] ts2] vs2] & E2 & E).
  assert (X1 : (g <= g1 <= g + 1)%N /\ (length ts1 <= 1)%nat).
  { destruct (empty (s_mgr k)).
    - apply bind_ok_inv in E1 as ([[? ?] ?] & E1 & Ex). injection Ex as <- _ <- _.
      apply extend_gen in E1; [simpl in *; lia|simpl; lia].
    - injection E1 as <- _ <- _. simpl. lia. }
  assert (X2 : (g1 <= g2 <= g1 + 2)%N /\ (length ts2 <= 2)%nat).
  { destruct (nltb (max_time (s_mgr k1)) b).
    - apply bind_ok_inv in E2 as (? & _ & E2).
      apply bind_ok_inv in E2 as ([[? ?] ?] & E2 & Ex). injection Ex as <- _ <- _.
      apply extend_gen in E2; rewrite app_length in *; simpl in *; lia.
    - injection E2 as <- _ <- _. lia. }
  destruct (nltb a (min_time (s_mgr k2))).
  - apply bind_ok_inv in E as (? & _ & E).
    apply bind_ok_inv in E as ([[? ?] ?] & E & Ex). injection Ex as <- _.
    apply extend_gen in E; rewrite app_length in *; simpl in *; lia.
  - injection E as <- _. lia.
Qed.

(** ** C50: after extend({t}, {v}) the curve has the value [v] at [t]. *)
Theorem C50_extend : forall g (c : comp) (t : R) (v : V) out g' c' out',
  sane g (s_mgr (c_base c)) -> p_min (s_pol (c_base c)) = 1%Z -> (g + 7 < 2 ^ 64)%N ->
  comp_extend ec g c [t] [v] out = Ok (g', c', out') ->
  comp_evaluate eb ec c' t = Ok v.
Proof.
  intros g c t v out g' c' out' Hs Hp Hg E. unfold comp_extend in E. cbn zeta in E.
  apply bind_ok_inv in E as ([g1 k] & E1 & E). apply bind_ok_inv in E as (kt & Ek & E).
  apply bind_ok_inv in E as ([[g2 b'] o2] & E2 & E). injection E as <- <- <-.
  apply cover_gen in E1; [|unfold key_mod; lia].
  destruct (extend_ratio_one g1 (c_base c) b' t (gmul (ginv kt) v) out g2 o2) as (Hs' & _ & Hi); auto.
  - apply (sane_mono g); [lia|auto].
  - unfold key_mod. lia.
  - unfold comp_evaluate. cbn [c_corr c_base]. rewrite Ek. cbn [bind].
    rewrite (pw_at mb b' t _ Hmb (proj1 Hs') Hi). cbn [bind]. now rewrite ginv_cancel.
Qed.

Lemma al_insert_two (a b : R) (u v w : V) : a < b ->
  al_insert b w (al_insert a v (al_insert a u [])) = [(a, v); (b, w)].
Proof.
  intros Hab. simpl. replace (Rltb a a) with false by (symmetry; apply Rltb_ge; lra). simpl.
  replace (Rltb b a) with false by (symmetry; apply Rltb_ge; lra).
  replace (Rltb a b) with true by (symmetry; apply Rltb_lt; lra). reflexivity.
Qed.

Lemma cover_identity g (k : curve) a b :
  sane g (s_mgr k) -> (g + 3 < key_mod)%N -> a <= b -> counting (s_pol k) ->
  (forall x, In x (contents (s_mgr k)) -> snd x = gone) ->
  (contents (s_mgr k) = [] \/ min_time (s_mgr k) <= a) ->
  exists g' k', comp_cover ec g k a b = Ok (g', k') /\ sane g' (s_mgr k') /\ (g <= g' <= g + 3)%N /\
    counting (s_pol k') /\ p_min (s_pol k') = p_min (s_pol k) /\ contents (s_mgr k') <> [] /\
    min_time (s_mgr k') <= a /\ b <= max_time (s_mgr k') /\
    (forall x, In x (contents (s_mgr k')) -> snd x = gone).
Proof.
  intros Hs Hg Hab Hcnt Hv Hmin. unfold comp_cover. rewrite contents_empty.
  destruct (contents (s_mgr k)) as [|x r] eqn:Ek.
  - clear Hmin.
    destruct (extend_insert g k [a] [gone] []) as (g1 & m1 & o1 & E1 & Hs1 & Hg1 & Ec1); auto.
    { simpl. lia. } { right. rewrite contents_size, Ek. simpl. lia. }
    assert (Hg1' : (g <= g1 <= g + 1)%N) by (apply extend_gen in E1; simpl in *; lia).
    rewrite E1. cbn [bind]. cbn [s_mgr]. rewrite Ek in Ec1. simpl in Ec1.
    assert (Em : max_time m1 = a) by now apply (contents_max m1 [] a gone).
    assert (En : min_time m1 = a) by now apply (contents_first m1 a gone []).
    rewrite Em. numR. destruct (Rltb a b) eqn:Eab.
    + apply Rltb_lt in Eab.
      rewrite (pw_at mc (Slerp m1 (s_pol k)) a gone); auto; [|apply Hs1|simpl; rewrite Ec1; now left].
      cbn [bind app].
      destruct (extend_insert g1 (Slerp m1 (s_pol k)) [a; b] [gone; gone] []) as (g2 & m2 & o2 & E2 & Hs2 & Hg2 & Ec2); auto.
      { simpl. lia. } { left. discriminate. }
      assert (Hg2' : (g1 <= g2 <= g1 + 2)%N) by (apply extend_gen in E2; simpl in *; lia).
      rewrite E2. cbn [bind s_mgr]. simpl s_mgr in Ec2. rewrite Ec1 in Ec2.
      change [(a, gone)] with (al_insert a gone (@nil (R * V))) in Ec2. simpl combine in Ec2. cbn [fold_left fst snd] in Ec2.
      rewrite al_insert_two in Ec2 by auto.
      assert (Em2 : max_time m2 = b) by now apply (contents_max m2 [(a, gone)] b gone).
      assert (En2 : min_time m2 = a) by now apply (contents_first m2 a gone [(b, gone)]).
      rewrite En2. replace (Rltb a a) with false by (symmetry; apply Rltb_ge; lra).
      do 2 eexists. split; [reflexivity|]. cbn [s_mgr s_pol]. rewrite Ec2, Em2, En2.
      split; [exact Hs2|]. split; [lia|]. split; auto. split; auto. split; [discriminate|].
      split; [lra|]. split; [lra|]. intros x [<-|[<-|[]]]; auto.
    + cbn [bind]. cbn [s_mgr]. rewrite En.
      replace (Rltb a a) with false by (symmetry; apply Rltb_ge; lra).
      apply Rltb_ge in Eab. do 2 eexists. split; [reflexivity|]. cbn [s_mgr s_pol]. rewrite Ec1, Em, En.
      split; [exact Hs1|]. split; [lia|]. split; auto. split; auto. split; [discriminate|].
      split; [lra|]. split; [lra|]. intros x [<-|[]]; auto.
  - destruct Hmin as [Hmin|Hmin]; [discriminate|]. cbn [bind app].
    assert (Hn : contents (s_mgr k) <> []) by congruence. numR.
    destruct (Rltb (max_time (s_mgr k)) b) eqn:Eb.
    + apply Rltb_lt in Eb. rewrite <- Ek in Hv.
      rewrite (pw_at mc k (max_time (s_mgr k)) gone); auto; [|apply Hs|].
      2:{ destruct (contents (s_mgr k)) as [|[t0 v0] l] eqn:El using rev_ind; [congruence|].
          rewrite (contents_max _ _ _ _ El). assert (v0 = gone) as ->.
          { apply (Hv (t0, v0)). rewrite in_app_iff. simpl. auto. }
          rewrite in_app_iff. simpl. auto. }
      cbn [bind].
      destruct (extend_past g k b gone []) as (g2 & k2 & o2 & E2 & Hs2 & Hg2 & Hc2 & Hp2 & Ec2); auto; [lia|].
      rewrite E2. cbn [bind].
      assert (Y : max_time (s_mgr k2) = b /\ min_time (s_mgr k2) = min_time (s_mgr k) /\ contents (s_mgr k2) <> [] /\
        forall x, In x (contents (s_mgr k2)) -> snd x = gone).
      { destruct x as [t0 v0]. rewrite (contents_first _ _ _ _ Ek).
        destruct Ec2 as [Ec2|(_ & l & y & Hl & El & Ec2)].
        - split; [now apply (contents_max _ (contents (s_mgr k)) b gone)|]. rewrite Ek in Ec2.
          split; [now apply (contents_first _ t0 v0 (r ++ [(b, gone)]))|].
          split; [rewrite Ec2; discriminate|]. rewrite Ec2, <- Ek. intros x Hx. apply in_app_iff in Hx as [Hx|[<-|[]]]; auto.
        - split; [now apply (contents_max _ l b gone)|].
          destruct l as [|z l]; [congruence|]. rewrite Ek in El. injection El as <- El.
          split; [now apply (contents_first _ t0 v0 (l ++ [(b, gone)]))|].
          split; [rewrite Ec2; discriminate|]. rewrite Ec2. intros x Hx. apply in_app_iff in Hx as [Hx|[<-|[]]]; auto.
          apply Hv. rewrite Ek, El. destruct Hx as [<-|Hx]; [now left|]. right. rewrite in_app_iff. auto. }
      destruct Y as (Y1 & Y2 & Y3 & Y4). rewrite Y2.
      replace (Rltb a (min_time (s_mgr k))) with false by (symmetry; now apply Rltb_ge).
      do 2 eexists. split; [reflexivity|]. rewrite Y1, Y2. split; [exact Hs2|]. split; [lia|]. split; auto.
      split; auto. split; auto. split; auto. split; [lra|auto].
    + apply Rltb_ge in Eb. cbn [bind].
      replace (Rltb a (min_time (s_mgr k))) with false by (symmetry; now apply Rltb_ge).
      do 2 eexists. split; [reflexivity|]. split; [exact Hs|]. split; [lia|]. split; auto. split; auto.
      split; auto. split; auto. split; auto. now rewrite Ek.
Qed.

(** A fresh composition curve fed with measurements in the order of their
    times, whatever the sampling ratio of the corrections: every call succeeds,
    the base consists of the measurements, the corrections are identities, the
    curve passes through every measurement and exists between them. *)
Theorem C50_feed : forall (n : Z) (ms : list (R * V)) (g : N) (out : list N),
  const_mid mc -> (1 <= n < 2 ^ 31)%Z -> increasing ms -> (g + 4 * N.of_nat (length ms) < 2 ^ 64)%N ->
  exists g' c' out', comp_feed ec g (comp_set_ratio comp_new n) ms out = Ok (g', c', out') /\
    contents (s_mgr (c_base c')) = ms /\
    (forall x, In x (contents (s_mgr (c_corr c'))) -> snd x = gone) /\
    (forall t v, In (t, v) ms -> comp_evaluate eb ec c' t = Ok v) /\
    (ms <> [] -> forall t, comp_min_time c' <= t <= comp_max_time c' ->
       exists v, comp_evaluate eb ec c' t = Ok v).
Proof.
  intros n ms g out Hk Hn Hinc Hg.
  assert (X : exists g' c' out', comp_feed ec g (comp_set_ratio comp_new n) ms out = Ok (g', c', out') /\
    sane g' (s_mgr (c_base c')) /\ sane g' (s_mgr (c_corr c')) /\ (g <= g' <= g + 4 * N.of_nat (length ms))%N /\
    counting (s_pol (c_base c')) /\ p_min (s_pol (c_base c')) = 1%Z /\
    counting (s_pol (c_corr c')) /\
    contents (s_mgr (c_base c')) = ms /\
    (forall x, In x (contents (s_mgr (c_corr c'))) -> snd x = gone) /\
    (ms = [] -> contents (s_mgr (c_corr c')) = []) /\
    (ms <> [] -> contents (s_mgr (c_corr c')) <> [] /\
       min_time (s_mgr (c_corr c')) <= min_time (s_mgr (c_base c')) /\
       max_time (s_mgr (c_base c')) <= max_time (s_mgr (c_corr c')))).
  { induction ms as [|[t v] ms IH] using rev_ind.
    - exists g. do 2 eexists. split; [reflexivity|]. simpl.
      assert (Hse : sane g (mgr_empty : mgr R V)) by (split; [apply consistent_empty|constructor]).
      split; [exact Hse|]. split; [exact Hse|]. split; [lia|].
      split; [unfold counting, int_max; simpl; lia|]. split; auto.
      split; [unfold counting, int_max; simpl; lia|]. split; auto. split; [intros ? []|]. split; auto. congruence.
    - rewrite app_length in Hg |- *. simpl length in *.
      destruct IH as (g1 & c1 & o1 & E1 & Sb & Sk & Hg1 & Cb & Pb & Ck & Ecb & Vk & K0 & K1).
      { apply increasing_prefix in Hinc. exact Hinc. } { lia. }
      unfold comp_feed in *. rewrite foldM_app, E1. cbn [bind foldM fst snd].
      assert (Y : exists a b, comp_extend ec g1 c1 [t] [v] o1 =
          (let* (g1', k) := comp_cover ec g1 (c_corr c1) a b in
           let* kt := ec k t in
           let* (g2, b', out') := slerp_extend g1' (c_base c1) [t] [gmul (ginv kt) v] o1 in
           Ok (g2, Comp b' k, out')) /\ a <= t <= b /\
          (ms <> [] -> max_time (s_mgr (c_base c1)) < t /\ a = min_time (s_mgr (c_base c1)) /\ b = t)).
      { unfold comp_extend. cbn zeta. do 2 eexists. split; [reflexivity|].
        rewrite contents_empty, Ecb. numR. destruct ms as [|[t0 v0] ms].
        - split; [|congruence]. destruct (Rltb 0 t) eqn:A, (Rltb t 0) eqn:B;
            try apply Rltb_lt in A; try apply Rltb_ge in A; try apply Rltb_lt in B; try apply Rltb_ge in B; lra.
        - assert (Hmx : max_time (s_mgr (c_base c1)) < t).
          { destruct (exists_last (l := (t0, v0) :: ms)) as (l & [tl vl] & El); [discriminate|].
            rewrite El in Hinc, Ecb. rewrite (contents_max _ _ _ _ Ecb).
            rewrite <- app_assoc in Hinc. simpl in Hinc. apply increasing_suffix in Hinc. simpl in Hinc.
            apply Rltb_lt. tauto. }
          assert (Hmm : min_time (s_mgr (c_base c1)) <= max_time (s_mgr (c_base c1))).
          { assert (Hi : In (t0, v0) (contents (s_mgr (c_base c1)))) by (rewrite Ecb; now left).
            pose proof (contents_bounds _ _ _ (proj1 Sb) Hi). lra. }
          replace (Rltb (max_time (s_mgr (c_base c1))) t) with true by (symmetry; now apply Rltb_lt).
          replace (Rltb t (min_time (s_mgr (c_base c1)))) with false by (symmetry; apply Rltb_ge; lra).
          split; [lra|]. auto. }
      destruct Y as (a & b & Ee & Hab & Hms).
      destruct (cover_identity g1 (c_corr c1) a b) as
        (g2 & k2 & E2 & Sk2 & Hg2 & Ck2 & Pk2 & Nk2 & Mk2 & Xk2 & Vk2); auto.
      { unfold key_mod. lia. } { lra. }
      { destruct ms as [|y ms]; [left; now apply K0|]. right.
        destruct Hms as (_ & -> & _); [discriminate|]. apply K1. discriminate. }
      assert (Ekt : ec k2 t = Ok gone).
      { apply pw_const; auto; [apply Sk2|]. lra. }
      rewrite Ee, E2. cbn [bind]. rewrite Ekt. cbn [bind].
      assert (Ev : gmul (ginv gone) v = v).
      { rewrite <- (gone_l (ginv gone)), ginv_r. apply gone_l. }
      rewrite Ev.
      assert (Sb2 : sane g2 (s_mgr (c_base c1))) by (apply (sane_mono g1); [lia|auto]).
      assert (Z : exists g3 b3 o3, slerp_extend g2 (c_base c1) [t] [v] o1 = Ok (g3, b3, o3) /\
        sane g3 (s_mgr b3) /\ (g2 <= g3 <= g2 + 1)%N /\ counting (s_pol b3) /\ p_min (s_pol b3) = 1%Z /\
        contents (s_mgr b3) = ms ++ [(t, v)]).
      { destruct ms as [|y ms].
        - destruct (extend_insert g2 (c_base c1) [t] [v] o1) as (g3 & m3 & o3 & E3 & S3 & H3 & C3); auto.
          { unfold key_mod. simpl. lia. } { right. rewrite contents_size, Ecb. simpl. lia. }
          assert (Hg3 : (g2 <= g3 <= g2 + 1)%N) by (apply extend_gen in E3; unfold key_mod in *; simpl in *; lia).
          exists g3. do 2 eexists. split; [exact E3|]. simpl. split; auto. split; [lia|]. split; auto. split; auto.
          rewrite C3, Ecb. reflexivity.
        - destruct (extend_past g2 (c_base c1) t v o1) as (g3 & b3 & o3 & E3 & S3 & H3 & Cb3 & Pb3 & C3); auto.
          { unfold key_mod. lia. } { rewrite Ecb. discriminate. } { apply Hms. discriminate. }
          exists g3, b3, o3. split; auto. split; auto. split; auto. split; auto. split; [congruence|].
          destruct C3 as [C3|(C3 & _)]; [|congruence]. now rewrite C3, Ecb. }
      destruct Z as (g3 & b3 & o3 & E3 & S3 & H3 & Cb3 & Pb3 & C3). rewrite E3. cbn [bind].
      exists g3, (Comp b3 k2), o3. cbn [c_base c_corr]. split; [reflexivity|]. split; auto.
      split; [apply (sane_mono g2); [lia|auto]|]. split; [lia|]. split; auto. split; auto. split; auto.
      split; auto. split; auto. split; [intros Hx; now apply app_eq_nil in Hx as [_ Hx]|].
      intros _. split; auto. rewrite (contents_max _ _ _ _ C3). split; [|lra].
      destruct ms as [|[t0 v0] ms].
      + rewrite (contents_first (s_mgr b3) _ _ _ C3). lra.
      + rewrite (contents_first (s_mgr b3) t0 v0 (ms ++ [(t, v)])) by exact C3.
        destruct Hms as (_ & Ea & _); [discriminate|]. rewrite (contents_first _ _ _ _ Ecb) in Ea. lra. }
  destruct X as (g' & c' & o' & E & Sb & Sk & _ & _ & _ & _ & Ecb & Vk & K0 & K1).
  exists g', c', o'. split; [exact E|]. split; [exact Ecb|]. split; [exact Vk|].
  assert (Hev : ms <> [] -> forall t, comp_min_time c' <= t <= comp_max_time c' ->
    comp_evaluate eb ec c' t = eb (c_base c') t).
  { intros Hne t Ht. destruct (K1 Hne) as (A & B & D). unfold comp_min_time, comp_max_time in Ht.
    unfold comp_evaluate. rewrite (pw_const mc (c_corr c') gone t); auto; [|apply Sk|lra]. cbn [bind].
    destruct (eb (c_base c') t); simpl; auto. now rewrite gone_l. }
  split.
  - intros t v Hi. assert (Hne : ms <> []) by (intros ->; destruct Hi).
    rewrite <- Ecb in Hi. rewrite Hev; auto; [apply pw_at; auto; apply Sb|].
    unfold comp_min_time, comp_max_time. exact (contents_bounds _ _ _ (proj1 Sb) Hi).
  - intros Hne t Ht. rewrite Hev by auto. apply pw_defined; auto; [apply Sb|now rewrite Ecb].
Qed.

(** ** C67: a new curve extended in time order can be evaluated on its range. *)
Corollary C67_new_curve_covered : forall (n : Z) (ms : list (R * V)) (g : N) (out : list N),
  const_mid mc -> (1 <= n < 2 ^ 31)%Z -> increasing ms -> ms <> [] -> (g + 4 * N.of_nat (length ms) < 2 ^ 64)%N ->
  exists g' c' out', comp_feed ec g (comp_set_ratio comp_new n) ms out = Ok (g', c', out') /\
    (forall t, comp_min_time c' <= t <= comp_max_time c' -> exists v, comp_evaluate eb ec c' t = Ok v).
Proof.
  intros n ms g out Hk Hn Hi Hne Hg.
  destruct (C50_feed n ms g out Hk Hn Hi Hg) as (g' & c' & out' & E & _ & _ & _ & Hev).
  exists g', c', out'. auto.
Qed.

(** ** C62: extending at the end

    With sampling ratio 1 for the corrections, a call with a time after the end
    succeeds and leaves the curve as it was up to its previous end. *)
Theorem C62_extend_keeps_the_past : forall g (c : comp) (t : R) (v : V) out,
  sane g (s_mgr (c_base c)) -> sane g (s_mgr (c_corr c)) -> (g + 7 < 2 ^ 64)%N ->
  p_min (s_pol (c_base c)) = 1%Z -> p_min (s_pol (c_corr c)) = 1%Z ->
  (0 <= p_count (s_pol (c_base c)))%Z -> (0 <= p_count (s_pol (c_corr c)))%Z ->
  contents (s_mgr (c_base c)) <> [] -> contents (s_mgr (c_corr c)) <> [] ->
  min_time (s_mgr (c_corr c)) <= comp_min_time c -> comp_max_time c <= max_time (s_mgr (c_corr c)) ->
  comp_max_time c < t ->
  exists g' c' out', comp_extend ec g c [t] [v] out = Ok (g', c', out') /\
    comp_max_time c' = t /\ comp_evaluate eb ec c' t = Ok v /\
    forall s, s <= comp_max_time c -> comp_evaluate eb ec c' s = comp_evaluate eb ec c s.
Proof.
  intros g c t v out Sb Sk Hg Pb Pk Cb Ck Nb Nk Hmin Hmax Ht. unfold comp_min_time, comp_max_time in *.
  assert (Kb : counting (s_pol (c_base c))) by (unfold counting, int_max; lia).
  assert (Kk : counting (s_pol (c_corr c))) by (unfold counting, int_max; lia).
  assert (Hmm : min_time (s_mgr (c_base c)) <= max_time (s_mgr (c_base c))).
  { destruct (contents (s_mgr (c_base c))) as [|[t0 v0] r] eqn:Ec; [congruence|].
    assert (Hi : In (t0, v0) (contents (s_mgr (c_base c)))) by (rewrite Ec; now left).
    pose proof (contents_bounds _ _ _ (proj1 Sb) Hi). lra. }
  assert (Ee : comp_extend ec g c [t] [v] out =
    (let* (g1, k) := comp_cover ec g (c_corr c) (min_time (s_mgr (c_base c))) t in
     let* kt := ec k t in
     let* (g2, b', out') := slerp_extend g1 (c_base c) [t] [gmul (ginv kt) v] out in
     Ok (g2, Comp b' k, out'))).
  { unfold comp_extend. cbn zeta. rewrite contents_empty.
    destruct (contents (s_mgr (c_base c))); [congruence|]. numR.
    replace (Rltb (max_time (s_mgr (c_base c))) t) with true by (symmetry; now apply Rltb_lt).
    replace (Rltb t (min_time (s_mgr (c_base c)))) with false by (symmetry; apply Rltb_ge; lra). reflexivity. }
  assert (Hcov : exists g1 k, comp_cover ec g (c_corr c) (min_time (s_mgr (c_base c))) t = Ok (g1, k) /\
    sane g1 (s_mgr k) /\ (g <= g1 <= g + 1)%N /\ contents (s_mgr k) <> [] /\
    min_time (s_mgr k) <= t <= max_time (s_mgr k) /\
    forall s, s <= max_time (s_mgr (c_corr c)) -> ec k s = ec (c_corr c) s).
  { unfold comp_cover. rewrite contents_empty.
    destruct (contents (s_mgr (c_corr c))) as [|[t0 v0] r] eqn:Ek; [congruence|]. cbn [bind app]. numR.
    destruct (Rltb (max_time (s_mgr (c_corr c))) t) eqn:Et.
    - apply Rltb_lt in Et.
      destruct (pw_defined mc (c_corr c) (max_time (s_mgr (c_corr c))) Hmc (proj1 Sk)) as (w & Ew);
        [congruence|lra|]. rewrite Ew. cbn [bind].
      destruct (extend_past g (c_corr c) t w []) as (g2 & k2 & o2 & E2 & Hs2 & Hg2 & Hc2 & Hp2 & Ec2); auto;
        [unfold key_mod; lia|congruence|].
      destruct Ec2 as [Ec2|[Ec2 _]]; [|congruence]. rewrite E2. cbn [bind].
      assert (Em : max_time (s_mgr k2) = t) by now apply (contents_max _ (contents (s_mgr (c_corr c))) t w).
      assert (En : min_time (s_mgr k2) = min_time (s_mgr (c_corr c))).
      { rewrite (contents_first _ _ _ _ Ek). rewrite Ek in Ec2. now apply (contents_first _ t0 v0 (r ++ [(t, w)])). }
      rewrite En.
      replace (Rltb (min_time (s_mgr (c_base c))) (min_time (s_mgr (c_corr c)))) with false
        by (symmetry; now apply Rltb_ge).
      do 2 eexists. split; [reflexivity|]. split; [exact Hs2|]. split; [lia|].
      split; [rewrite Ec2, Ek; discriminate|]. rewrite Em, En. split; [lra|].
      intros s Hs. apply (pw_append mc (c_corr c) k2 t w s); auto; [apply Sk|apply Hs2|congruence].
    - apply Rltb_ge in Et. cbn [bind].
      replace (Rltb (min_time (s_mgr (c_base c))) (min_time (s_mgr (c_corr c)))) with false
        by (symmetry; now apply Rltb_ge).
      do 2 eexists. split; [reflexivity|]. split; [exact Sk|]. split; [lia|]. split; [congruence|].
      split; [lra|]. auto. }
  destruct Hcov as (g1 & k & E1 & Sk1 & Hg1 & Nk1 & Rk & Hkeep).
  destruct (pw_defined mc k t Hmc (proj1 Sk1) Nk1 Rk) as (kt & Ekt).
  destruct (extend_past g1 (c_base c) t (gmul (ginv kt) v) out) as
    (g2 & b2 & o2 & E2 & Hs2 & Hg2 & Hc2 & Hp2 & Ec2); auto.
  { apply (sane_mono g); [lia|auto]. } { unfold key_mod. lia. }
  destruct Ec2 as [Ec2|[Ec2 _]]; [|congruence].
  assert (E : comp_extend ec g c [t] [v] out = Ok (g2, Comp b2 k, o2)).
  { rewrite Ee, E1. cbn [bind]. rewrite Ekt. cbn [bind]. rewrite E2. reflexivity. }
  exists g2, (Comp b2 k), o2. split; [exact E|]. split; [now apply (contents_max _ _ _ _ Ec2)|].
  split; [exact (C50_extend g c t v out g2 (Comp b2 k) o2 Sb Pb Hg E)|].
  intros s Hs. unfold comp_evaluate. cbn [c_corr c_base]. rewrite Hkeep by lra.
  rewrite (pw_append mb (c_base c) b2 t (gmul (ginv kt) v) s Hmb (proj1 Sb) (proj1 Hs2) Nb Ec2 Hs).
  reflexivity.
Qed.

(** ** C50: folding in the corrections *)

Lemma forall2_length {A B} (P : A -> B -> Prop) l l' : Forall2 P l l' -> length l = length l'.
Proof. induction 1; simpl; auto. Qed.

Lemma combine_fst {A B} (l : list A) (l' : list B) : length l = length l' -> map fst (combine l l') = l.
Proof. revert l'. induction l as [|a l IH]; intros [|b l'] E; simpl in *; try discriminate; auto. now rewrite IH by lia. Qed.

(** The curve keeps its value at every base coefficient time, the corrections
    become identities at the same times, and the curve becomes its base. *)
Theorem C50_fold : forall g (c : comp),
  const_mid mc -> sane g (s_mgr (c_base c)) -> sane g (s_mgr (c_corr c)) ->
  (g + N.of_nat (size (s_mgr (c_base c))) + N.of_nat (size (s_mgr (c_corr c))) < 2 ^ 64)%N ->
  contents (s_mgr (c_base c)) <> [] -> contents (s_mgr (c_corr c)) <> [] ->
  min_time (s_mgr (c_corr c)) <= comp_min_time c -> comp_max_time c <= max_time (s_mgr (c_corr c)) ->
  exists g' c', comp_fold eb ec g c = Ok (g', c') /\
    get_times (s_mgr (c_base c')) = get_times (s_mgr (c_base c)) /\
    get_times (s_mgr (c_corr c')) = get_times (s_mgr (c_corr c)) /\
    (forall x, In x (contents (s_mgr (c_corr c'))) -> snd x = gone) /\
    (forall t, In t (get_times (s_mgr (c_base c))) -> comp_evaluate eb ec c' t = comp_evaluate eb ec c t) /\
    (forall t, comp_min_time c <= t <= comp_max_time c ->
       comp_evaluate eb ec c' t = eb (c_base c') t).
Proof.
  intros g c Hk Sb Sk Hg Nb Nk Hmin Hmax. unfold comp_min_time, comp_max_time in *.
  set (ts := get_times (s_mgr (c_base c))). set (cts := get_times (s_mgr (c_corr c))).
  assert (Hev : forall t, In t ts -> exists v, comp_evaluate eb ec c t = Ok v).
  { intros t Hi. unfold ts in Hi. rewrite <- contents_times in Hi. apply in_map_iff in Hi as ([t' v] & <- & Hi). simpl.
    pose proof (contents_bounds _ _ _ (proj1 Sb) Hi) as Hb. unfold comp_evaluate.
    destruct (pw_defined mc (c_corr c) t' Hmc (proj1 Sk) Nk) as (k & ->); [lra|]. cbn [bind].
    rewrite (pw_at mb (c_base c) t' v Hmb (proj1 Sb) Hi). simpl. eauto. }
  destruct (mapM_total (comp_evaluate eb ec c) ts Hev) as (vs & Evs).
  pose proof (proj1 (mapM_ok _ _ _) Evs) as Hvs. pose proof (forall2_length _ _ _ Hvs) as Hl.
  assert (Lts : length ts = size (s_mgr (c_base c))) by (unfold ts, get_times, size; now rewrite map_length).
  assert (Lct : length cts = size (s_mgr (c_corr c))) by (unfold cts, get_times, size; now rewrite map_length).
  destruct (extend_cleared g (c_base c) ts vs []) as (g1 & m1 & o1 & E1 & S1 & Hg1 & C1); auto.
  { unfold key_mod. lia. }
  { apply (increasing_fst (contents (s_mgr (c_base c)))); [|apply contents_increasing; apply Sb].
    rewrite combine_fst by auto. apply contents_times. }
  destruct (extend_cleared g1 (c_corr c) cts (map (fun _ => gone) cts) []) as (g2 & m2 & o2 & E2 & S2 & Hg2 & C2).
  { now rewrite map_length. } { unfold key_mod. lia. }
  { apply (increasing_fst (contents (s_mgr (c_corr c)))); [|apply contents_increasing; apply Sk].
    rewrite combine_fst by now rewrite map_length. apply contents_times. }
  set (c' := Comp (Slerp m1 (s_pol (c_base c))) (Slerp m2 (s_pol (c_corr c)))).
  exists g2, c'.
  assert (T1 : get_times (s_mgr (c_base c')) = ts).
  { rewrite <- contents_times. simpl. rewrite C1. now apply combine_fst. }
  assert (T2 : get_times (s_mgr (c_corr c')) = cts).
  { rewrite <- contents_times. simpl. rewrite C2. apply combine_fst. now rewrite map_length. }
  assert (G : forall x, In x (contents (s_mgr (c_corr c'))) -> snd x = gone).
  { simpl. rewrite C2. clear. induction cts as [|a l IH]; simpl; [tauto|]. intros x [<-|Hx]; auto. }
  split; [|split; [exact T1|split; [exact T2|split; [exact G|]]]].
  { unfold comp_fold. cbn zeta. fold ts cts. rewrite Evs. cbn [bind]. rewrite E1. cbn [bind]. rewrite E2. reflexivity. }
  assert (Nk' : contents (s_mgr (c_corr c')) <> []).
  { intros X. apply Nk. apply (f_equal (map fst)) in X. rewrite contents_times, T2 in X. unfold cts in X.
    rewrite <- contents_times in X. now apply map_eq_nil in X. }
  assert (R : min_time (s_mgr (c_corr c')) = min_time (s_mgr (c_corr c)) /\
              max_time (s_mgr (c_corr c')) = max_time (s_mgr (c_corr c))).
  { split.
    - destruct (contents (s_mgr (c_corr c'))) as [|[t0 v0] r] eqn:X; [congruence|].
      destruct (contents (s_mgr (c_corr c))) as [|[t1 v1] r1] eqn:Y; [congruence|].
      rewrite (contents_first _ _ _ _ X), (contents_first _ _ _ _ Y).
      apply (f_equal (map fst)) in X, Y. rewrite contents_times in X, Y. rewrite T2 in X. unfold cts in X. simpl in X, Y. congruence.
    - rewrite <- !al_max_spec. unfold al_max. now rewrite !contents_times, T2. }
  assert (W : forall t, min_time (s_mgr (c_base c)) <= t <= max_time (s_mgr (c_base c)) ->
       comp_evaluate eb ec c' t = eb (c_base c') t).
  { intros t Ht. unfold comp_evaluate. rewrite (pw_const mc (c_corr c') gone t); auto; [|apply S2|lra]. cbn [bind].
    destruct (eb (c_base c') t); simpl; auto. now rewrite gone_l. }
  split; [|exact W].
  intros t Hi. assert (Hi' := Hi). unfold ts in Hi'. rewrite <- contents_times in Hi'.
  apply in_map_iff in Hi' as ([t' v'] & Et & Hi'). simpl in Et. subst t'.
  rewrite W by exact (contents_bounds _ _ _ (proj1 Sb) Hi').
  destruct (Hev t Hi) as (v & Ev). rewrite Ev. apply pw_at; auto; [apply S1|]. simpl. rewrite C1.
  clear - Hi Hvs Ev. induction Hvs as [|a b l l' Hab Hl IH]; [destruct Hi|]. simpl.
  destruct Hi as [->|Hi]; [left; f_equal; congruence|right; auto].
Qed.

(** ** Redefining one of the curves *)

Lemma holds_contents (m : mgr R V) t v : (exists k, holds m t k v) <-> In (t, v) (contents m).
Proof.
  split.
  - intros (k & n & Hi & Et & _ & <-). apply teq_R in Et. subst t. now apply contents_in.
  - intros Hi. apply in_contents in Hi as (n & Hi & <- & <-). exists (n_key n), n. repeat split; auto. apply teq_refl.
Qed.

(** What is on a cleared curve after inserting. *)
Lemma refill g (m : mgr R V) ts vs out :
  length ts = length vs -> (g + N.of_nat (length ts) < key_mod)%N ->
  exists g' m' out', insert_coefficients g (clear m) ts vs out = Ok (g', m', out') /\ sane g' m' /\ (g <= g')%N /\
    forall t v, In (t, v) (contents m') <-> last_value (combine ts vs) t = Some v.
Proof.
  intros Hl Hg. unfold insert_coefficients. rewrite Hl, Nat.eqb_refl.
  assert (Hlen : length (combine ts vs) = length ts) by (rewrite combine_length; lia).
  rewrite <- Hlen in Hg.
  destruct (insert_loop_spec (combine ts vs) g (clear m) out (clear_consistent m)) as
    (g' & m' & ks & E & Hc & Hb & Hgg & _ & _ & _ & _ & Hback & Hlast & _); [constructor|exact Hg|].
  exists g', m', (out ++ ks). split; [exact E|]. split; [now split|]. split; [lia|].
  intros t v. rewrite <- holds_contents. split.
  - intros (k & Hh). specialize (Hback _ _ _ Hh). destruct (last_value (combine ts vs) t); [now subst|].
    destruct Hback as (n & [] & _).
  - intros Hv. now apply Hlast.
Qed.

Lemma last_value_all (f : R -> V -> Prop) ts vs t :
  Forall2 f ts vs ->
  (forall v, last_value (combine ts vs) t = Some v -> In t ts /\ f t v) /\
  (In t ts -> exists v, last_value (combine ts vs) t = Some v).
Proof.
  induction 1 as [|a b l l' Hab Hl [IH1 IH2]]; simpl; [split; [discriminate|tauto]|].
  destruct (last_value (combine l l') t) as [v'|] eqn:E.
  - split; [|eauto]. intros v [= <-]. destruct (IH1 _ eq_refl). auto.
  - destruct (teq a t) eqn:Et.
    + apply teq_R in Et. subst a. split; [intros v [= <-]; auto|eauto].
    + split; [discriminate|]. intros [->|Hi]; [|auto].
      assert (X : teq t t = true) by now apply teq_R. congruence.
Qed.

(** [ts] lies in [a, b] and contains both ends. *)
Definition spans (ts : list R) (a b : R) : Prop := In a ts /\ In b ts /\ forall t, In t ts -> a <= t <= b.

Lemma range_spans (m : mgr R V) ts a b :
  consistent m -> ts <> [] -> (forall t, In t ts <-> exists v, In (t, v) (contents m)) ->
  (min_time m = a /\ max_time m = b) <-> spans ts a b.
Proof.
  intros Hc Hn Hts.
  assert (Nc : contents m <> []).
  { destruct ts as [|t ts]; [congruence|]. destruct (proj1 (Hts t)) as (v & Hi); [now left|].
    intros X. rewrite X in Hi. destruct Hi. }
  assert (Imin : In (min_time m) ts).
  { apply Hts. destruct (contents m) as [|[t v] r] eqn:E; [congruence|]. exists v.
    rewrite (contents_first _ _ _ _ E). now left. }
  assert (Imax : In (max_time m) ts).
  { apply Hts. destruct (contents m) as [|[t v] r] eqn:E using rev_ind; [congruence|]. exists v.
    rewrite (contents_max _ _ _ _ E), in_app_iff. simpl. auto. }
  assert (Hb : forall t, In t ts -> min_time m <= t <= max_time m).
  { intros t Hi. apply Hts in Hi as (v & Hi). exact (contents_bounds _ _ _ Hc Hi). }
  split.
  - intros [<- <-]. repeat split; auto; now apply Hb.
  - intros (A & B & D). pose proof (Hb _ A). pose proof (Hb _ B). pose proof (D _ Imin). pose proof (D _ Imax). lra.
Qed.

Lemma same_range_R (c : comp) : same_range c = true <->
  min_time (s_mgr (c_corr c)) = min_time (s_mgr (c_base c)) /\
  max_time (s_mgr (c_corr c)) = max_time (s_mgr (c_base c)).
Proof. unfold same_range. rewrite andb_true_iff, !neqb_R. tauto. Qed.

(** Correction curve with the range of the base and identities only. *)
Lemma identity_corrections (c : comp) :
  const_mid mc -> consistent (s_mgr (c_base c)) -> consistent (s_mgr (c_corr c)) ->
  contents (s_mgr (c_corr c)) <> [] -> (forall x, In x (contents (s_mgr (c_corr c))) -> snd x = gone) ->
  min_time (s_mgr (c_corr c)) = min_time (s_mgr (c_base c)) ->
  max_time (s_mgr (c_corr c)) = max_time (s_mgr (c_base c)) ->
  forall t, comp_evaluate eb ec c t = eb (c_base c) t.
Proof.
  intros Hk Cb Ck Nk Hv Emin Emax t. unfold comp_evaluate.
  assert (X : min_time (s_mgr (c_corr c)) <= t <= max_time (s_mgr (c_corr c)) \/
    (t < min_time (s_mgr (c_corr c)) \/ max_time (s_mgr (c_corr c)) < t)) by lra.
  destruct X as [X|X].
  - rewrite (pw_const mc (c_corr c) gone t) by auto. cbn [bind].
    destruct (eb (c_base c) t); simpl; auto. now rewrite gone_l.
  - rewrite (pw_outside mc (c_corr c) t) by auto. simpl. symmetry.
    destruct (contents (s_mgr (c_base c))) as [|x r] eqn:Eb.
    + rewrite pw_empty by auto. apply contents_nil in Eb.
      assert (A : min_time (s_mgr (c_base c)) = 0) by (unfold min_time; rewrite Eb; reflexivity).
      assert (B : max_time (s_mgr (c_base c)) = 0) by (unfold max_time; rewrite Eb; reflexivity).
      rewrite (proj2 (neqb_R_false t 0)); [reflexivity|]. intros ->. lra.
    + apply pw_outside; auto; [congruence|]. lra.
Qed.

(** resetCorrectionCurve succeeds exactly for times that span the range of the
    base; afterwards the curve is its base. *)
Theorem C50_reset : forall g (c : comp) (ts : list R),
  const_mid mc -> sane g (s_mgr (c_base c)) -> ts <> [] -> (g + N.of_nat (length ts) < 2 ^ 64)%N ->
  (spans ts (comp_min_time c) (comp_max_time c) ->
     exists g' c', comp_reset_correction g c ts = Ok (g', c') /\ c_base c' = c_base c /\
       (forall t, In t ts <-> In t (get_times (s_mgr (c_corr c')))) /\
       forall t, comp_evaluate eb ec c' t = eb (c_base c) t) /\
  (~ spans ts (comp_min_time c) (comp_max_time c) -> comp_reset_correction g c ts = Abort).
Proof.
  intros g c ts Hk Sb Hts Hg.
  destruct (refill g (s_mgr (c_corr c)) ts (map (fun _ => gone) ts) []) as (g1 & m1 & o1 & E1 & S1 & _ & C1);
    [now rewrite map_length|exact Hg|].
  set (c' := Comp (c_base c) (Slerp m1 (s_pol (c_corr c)))).
  assert (Ef : comp_reset_correction g c ts = checked g1 c').
  { unfold comp_reset_correction, slerp_fit. rewrite map_length, Nat.eqb_refl. cbn [negb].
    destruct ts as [|t ts]; [congruence|]. cbn zeta. unfold slerp_clear at 1. cbn [s_mgr]. rewrite E1. reflexivity. }
  assert (HF : Forall2 (fun (_ : R) v => v = gone) ts (map (fun _ => gone) ts)).
  { clear. induction ts; constructor; auto. }
  assert (Hin : forall t, In t ts <-> exists v, In (t, v) (contents m1)).
  { intros t. destruct (last_value_all _ _ _ t HF) as [A B]. split.
    - intros Hi. destruct (B Hi) as (v & Hv). exists v. now apply C1.
    - intros (v & Hv). apply C1 in Hv. now apply A in Hv. }
  assert (Hg1 : forall x, In x (contents m1) -> snd x = gone).
  { intros [t v] Hx. apply C1 in Hx. now apply (last_value_all _ _ _ t HF) in Hx. }
  assert (Hn : contents m1 <> []).
  { destruct ts as [|t ts]; [congruence|]. destruct (proj1 (Hin t)) as (v & Hi); [now left|]. intros X. rewrite X in Hi. destruct Hi. }
  pose proof (range_spans m1 ts (comp_min_time c) (comp_max_time c) (proj1 S1) Hts Hin) as Hr.
  assert (Hsr : same_range c' = true <-> spans ts (comp_min_time c) (comp_max_time c)).
  { rewrite same_range_R. exact Hr. }
  rewrite Ef. unfold checked. split.
  - intros Hsp. apply Hsr in Hsp as Esr. rewrite Esr. exists g1, c'. split; [reflexivity|]. split; [reflexivity|]. split.
    + intros t. rewrite Hin, <- contents_times, in_map_iff. simpl. split.
      * intros (v & Hi). exists (t, v). auto.
      * intros ([t' v] & <- & Hi). simpl. eauto.
    + apply Hr in Hsp as [A B]. apply (identity_corrections c'); auto; [apply Sb|apply S1].
  - intros Hsp. destruct (same_range c') eqn:X; [|reflexivity]. elim Hsp. now apply Hsr.
Qed.

(** ** C64: setCorrectionTimes resamples the corrections: it succeeds exactly for
    times in the range of the corrections that span the range of the base, and
    keeps the curve at these times. *)
Theorem C64_set_correction_times : forall g (c : comp) (ts : list R),
  sane g (s_mgr (c_base c)) -> sane g (s_mgr (c_corr c)) -> contents (s_mgr (c_corr c)) <> [] ->
  ts <> [] -> (g + N.of_nat (length ts) < 2 ^ 64)%N ->
  let within := forall t, In t ts -> min_time (s_mgr (c_corr c)) <= t <= max_time (s_mgr (c_corr c)) in
  (within -> spans ts (comp_min_time c) (comp_max_time c) ->
     exists g' c', comp_set_correction_times ec g c ts = Ok (g', c') /\ c_base c' = c_base c /\
       (forall t, In t ts <-> In t (get_times (s_mgr (c_corr c')))) /\
       forall t, In t ts -> comp_evaluate eb ec c' t = comp_evaluate eb ec c t) /\
  (~ (within /\ spans ts (comp_min_time c) (comp_max_time c)) -> comp_set_correction_times ec g c ts = Abort).
Proof.
  intros g c ts Sb Sk Nk Hts Hg within. unfold comp_set_correction_times.
  assert (Hmap : (within /\ exists vs, mapM (ec (c_corr c)) ts = Ok vs) \/
                 (~ within /\ mapM (ec (c_corr c)) ts = Abort)).
  { unfold within. clear Hts Hg within. induction ts as [|t ts IH]; [left; split; [intros ? []|exists []; reflexivity]|].
    destruct (Rle_dec (min_time (s_mgr (c_corr c))) t) as [A|A];
      [destruct (Rle_dec t (max_time (s_mgr (c_corr c)))) as [B|B]|].
    - destruct (pw_defined mc (c_corr c) t Hmc (proj1 Sk) Nk) as (v & Ev); [lra|]. simpl. rewrite Ev. cbn [bind].
      destruct IH as [(Hw & vs & ->)|(Hw & ->)].
      + left. split; [|simpl; eauto]. intros x [<-|Hx]; auto.
      + right. split; auto.
    - right. split; [intros X; specialize (X t (or_introl eq_refl)); lra|]. simpl.
      rewrite pw_outside; auto; [apply Sk|lra].
    - right. split; [intros X; specialize (X t (or_introl eq_refl)); lra|]. simpl.
      rewrite pw_outside; auto; [apply Sk|lra]. }
  destruct Hmap as [(Hw & vs & Evs)|(Hw & Evs)].
  2:{ rewrite Evs. simpl. split; [intros; contradiction|auto]. }
  rewrite Evs. cbn [bind]. pose proof (proj1 (mapM_ok _ _ _) Evs) as HF. pose proof (forall2_length _ _ _ HF) as Hl.
  destruct (refill g (s_mgr (c_corr c)) ts vs []) as (g1 & m1 & o1 & E1 & S1 & _ & C1); [exact Hl|exact Hg|].
  set (c' := Comp (c_base c) (Slerp m1 (s_pol (c_corr c)))).
  assert (Ef : (let* (g2, k, _) := slerp_extend g (slerp_clear (c_corr c)) ts vs [] in checked g2 (Comp (c_base c) k))
    = checked g1 c').
  { unfold slerp_extend. rewrite Hl, Nat.eqb_refl. cbn [negb]. unfold slerp_clear, c'. cbn [s_mgr s_pol].
    change (empty (clear (s_mgr (c_corr c)))) with true. cbn [orb].
    destruct ts as [|t [|t2 ts]]; [congruence| |].
    - destruct vs as [|v [|? ?]]; try discriminate. rewrite E1. reflexivity.
    - destruct vs as [|v [|v2 vs]]; try discriminate. rewrite E1. reflexivity. }
  assert (Hin : forall t, In t ts <-> exists v, In (t, v) (contents m1)).
  { intros t. destruct (last_value_all _ _ _ t HF) as [A B]. split.
    - intros Hi. destruct (B Hi) as (v & Hv). exists v. now apply C1.
    - intros (v & Hv). apply C1 in Hv. now apply A in Hv. }
  pose proof (range_spans m1 ts (comp_min_time c) (comp_max_time c) (proj1 S1) Hts Hin) as Hr.
  assert (Hsr : same_range c' = true <-> spans ts (comp_min_time c) (comp_max_time c)).
  { rewrite same_range_R. exact Hr. }
  rewrite Ef. unfold checked. split.
  - intros _ Hsp. apply Hsr in Hsp as Esr. rewrite Esr. exists g1, c'. split; [reflexivity|]. split; [reflexivity|]. split.
    + intros t. rewrite Hin, <- contents_times, in_map_iff. simpl. split.
      * intros (v & Hi). exists (t, v). auto.
      * intros ([t' v] & <- & Hi). simpl. eauto.
    + intros t Hi. apply Hin in Hi as (v & Hi). unfold comp_evaluate. cbn [c_corr c_base c'].
      rewrite (pw_at mc (Slerp m1 (s_pol (c_corr c))) t v Hmc (proj1 S1) Hi).
      apply C1 in Hi. apply (last_value_all _ _ _ t HF) in Hi as [_ ->]. reflexivity.
  - intros Hsp. destruct (same_range c') eqn:X; [|reflexivity]. elim Hsp. split; [exact Hw|]. now apply Hsr.
Qed.

(** ** C65: setCorrectionCoefficientAtTime *)
Theorem C65_set_correction : forall g (c : comp) (t : R) (v : V),
  sane g (s_mgr (c_corr c)) ->
  (In t (get_times (s_mgr (c_corr c))) ->
     exists c', comp_set_correction g c t v = Ok (g, c') /\ c_base c' = c_base c /\
       get_keys (s_mgr (c_corr c')) = get_keys (s_mgr (c_corr c)) /\
       comp_evaluate eb ec c' t = omap (gmul v) (eb (c_base c) t) /\
       forall s, s <> t -> In s (get_times (s_mgr (c_corr c))) ->
         comp_evaluate eb ec c' s = comp_evaluate eb ec c s) /\
  (~ In t (get_times (s_mgr (c_corr c))) -> comp_set_correction g c t v = Abort).
Proof.
  intros g c t v Sk. unfold comp_set_correction.
  assert (Hh : has_coefficient_at_time (s_mgr (c_corr c)) t = true <-> In t (get_times (s_mgr (c_corr c)))).
  { rewrite (present_has _ _ (proj1 Sk)), <- contents_times, in_map_iff. unfold present. split.
    - intros (k & v0 & Hk). exists (t, v0). split; auto. apply holds_contents. eauto.
    - intros ([t' v0] & <- & Hi). apply holds_contents in Hi as (k & Hk). eauto. }
  split; intros Hi.
  - rewrite (proj2 Hh Hi). rewrite <- contents_times in Hi. apply in_map_iff in Hi as ([t' v0] & Et & Hi).
    simpl in Et. subst t'. apply in_split in Hi as (u & w & Ec).
    destruct (insert_over g (s_mgr (c_corr c)) u t v0 w v Sk Ec) as (m' & k & -> & S' & Ec' & Ek). cbn [bind].
    eexists. split; [reflexivity|]. cbn [c_base c_corr s_mgr]. split; [reflexivity|]. split; [exact Ek|]. split.
    + unfold comp_evaluate. cbn [c_base c_corr].
      rewrite (pw_at mc (Slerp m' (s_pol (c_corr c))) t v Hmc (proj1 S')); [reflexivity|].
      simpl. rewrite Ec', in_app_iff. simpl. auto.
    + intros s Hs Hi. rewrite <- contents_times in Hi. apply in_map_iff in Hi as ([s' x] & Es & Hi).
      simpl in Es. subst s'. unfold comp_evaluate. cbn [c_base c_corr].
      rewrite (pw_at mc (c_corr c) s x Hmc (proj1 Sk) Hi).
      rewrite (pw_at mc (Slerp m' (s_pol (c_corr c))) s x Hmc (proj1 S')); [reflexivity|].
      simpl. rewrite Ec in Hi. rewrite Ec'. apply in_app_iff in Hi as [Hi|[[= <- _]|Hi]]; [|congruence|];
        rewrite in_app_iff; simpl; auto.
  - destruct (has_coefficient_at_time (s_mgr (c_corr c)) t) eqn:X; [|reflexivity]. elim Hi. now apply Hh.
Qed.

(** removeCorrectionCoefficientAtTime takes away one correction; the others, and
    the values of the curve at their times, remain. *)
Theorem C65_remove_correction : forall g (c : comp) (t : R),
  sane g (s_mgr (c_corr c)) ->
  (In t (get_times (s_mgr (c_corr c))) ->
     exists c', comp_remove_correction c t = Ok c' /\ c_base c' = c_base c /\
       (forall s, In s (get_times (s_mgr (c_corr c'))) <-> s <> t /\ In s (get_times (s_mgr (c_corr c)))) /\
       forall s, s <> t -> In s (get_times (s_mgr (c_corr c))) ->
         comp_evaluate eb ec c' s = comp_evaluate eb ec c s) /\
  (~ In t (get_times (s_mgr (c_corr c))) -> comp_remove_correction c t = Abort).
Proof.
  intros g c t Sk. unfold comp_remove_correction.
  assert (Hg : forall (m : mgr R V) s, In s (get_times m) <-> present m s).
  { intros m s. rewrite <- contents_times, in_map_iff. unfold present. split.
    - intros ([s' v0] & <- & Hi). apply holds_contents in Hi as (k & Hk). eauto.
    - intros (k & v0 & Hk). exists (s, v0). split; auto. apply holds_contents. eauto. }
  pose proof (present_has (s_mgr (c_corr c)) t (proj1 Sk)) as Hh. rewrite Hg. split; intros Hp.
  - rewrite (proj2 Hh Hp). destruct Hp as (k & v & Hk).
    destruct (remove_present _ _ _ _ (proj1 Sk) Hk) as (m' & -> & Hc' & _ & _ & Hr). cbn [bind].
    eexists. split; [reflexivity|]. cbn [c_base c_corr s_mgr]. split; [reflexivity|].
    assert (Hne : forall s : R, teq t s = false <-> s <> t).
    { intros s. destruct (teq t s) eqn:X.
      - apply teq_R in X. subst. split; congruence.
      - split; auto. intros _ ->. assert (Y : teq t t = true) by now apply teq_R. congruence. }
    split.
    + intros s. rewrite !Hg. unfold present. split.
      * intros (k' & v' & Hh'). apply Hr in Hh' as [A B]. split; [now apply Hne|eauto].
      * intros (A & k' & v' & B). exists k', v'. apply Hr. split; [now apply Hne|auto].
    + intros s Hs Hi. apply Hg in Hi as (k' & v' & Hi).
      assert (Hi' : holds m' s k' v') by (apply Hr; split; [now apply Hne|auto]).
      unfold comp_evaluate. cbn [c_base c_corr].
      rewrite (pw_at mc (c_corr c) s v' Hmc (proj1 Sk)) by (apply holds_contents; eauto).
      rewrite (pw_at mc (Slerp m' (s_pol (c_corr c))) s v' Hmc Hc') by (apply holds_contents; eauto).
      reflexivity.
  - destruct (has_coefficient_at_time (s_mgr (c_corr c)) t); [|reflexivity]. elim Hp. now apply Hh.
Qed.

(** ** C66: setBaseCurve stores the values in the base, uncorrected: the curve
    then has the correction times the given value. *)
Theorem C66_set_base : forall g (c : comp) (ts : list R) (vs : list V),
  sane g (s_mgr (c_corr c)) -> contents (s_mgr (c_corr c)) <> [] ->
  length ts = length vs -> ts <> [] -> (g + N.of_nat (length ts) < 2 ^ 64)%N ->
  (spans ts (min_time (s_mgr (c_corr c))) (max_time (s_mgr (c_corr c))) ->
     exists g' c', comp_set_base g c ts vs = Ok (g', c') /\ c_corr c' = c_corr c /\
       (forall t, In t ts <-> In t (get_times (s_mgr (c_base c')))) /\
       forall t v, last_value (combine ts vs) t = Some v ->
         comp_evaluate eb ec c' t = omap (fun k => gmul k v) (ec (c_corr c) t)) /\
  (~ spans ts (min_time (s_mgr (c_corr c))) (max_time (s_mgr (c_corr c))) -> comp_set_base g c ts vs = Abort).
Proof.
  intros g c ts vs Sk Nk Hl Hts Hg.
  destruct (refill g (s_mgr (c_base c)) ts vs []) as (g1 & m1 & o1 & E1 & S1 & _ & C1); [exact Hl|exact Hg|].
  set (c' := Comp (Slerp m1 (s_pol (c_base c))) (c_corr c)).
  assert (Ef : comp_set_base g c ts vs = checked g1 c').
  { unfold comp_set_base, slerp_fit. rewrite Hl, Nat.eqb_refl. cbn [negb].
    destruct ts as [|t ts]; [congruence|]. cbn zeta. unfold slerp_clear at 1. cbn [s_mgr]. rewrite E1. reflexivity. }
  assert (HF : Forall2 (fun (_ : R) (_ : V) => True) ts vs).
  { clear - Hl. revert vs Hl. induction ts; intros [|? ?] Hl; try discriminate; constructor; auto. }
  assert (Hin : forall t, In t ts <-> exists v, In (t, v) (contents m1)).
  { intros t. destruct (last_value_all _ _ _ t HF) as [A B]. split.
    - intros Hi. destruct (B Hi) as (v & Hv). exists v. now apply C1.
    - intros (v & Hv). apply C1 in Hv. now apply A in Hv. }
  pose proof (range_spans m1 ts (min_time (s_mgr (c_corr c))) (max_time (s_mgr (c_corr c))) (proj1 S1) Hts Hin) as Hr.
  assert (Hsr : same_range c' = true <-> spans ts (min_time (s_mgr (c_corr c))) (max_time (s_mgr (c_corr c)))).
  { rewrite same_range_R, <- Hr. cbn [c_base c_corr c' s_mgr]. split; intros [A B]; split; auto. }
  rewrite Ef. unfold checked. split.
  - intros Hsp. apply Hsr in Hsp as Esr. rewrite Esr. exists g1, c'. split; [reflexivity|]. split; [reflexivity|]. split.
    + intros t. rewrite Hin, <- contents_times, in_map_iff. simpl. split.
      * intros (v & Hi). exists (t, v). auto.
      * intros ([t' v] & <- & Hi). simpl. eauto.
    + intros t v Hv. apply C1 in Hv. unfold comp_evaluate. cbn [c_base c_corr c'].
      rewrite (pw_at mb (Slerp m1 (s_pol (c_base c))) t v Hmb (proj1 S1) Hv). reflexivity.
  - intros Hsp. destruct (same_range c') eqn:X; [|reflexivity]. elim Hsp. now apply Hsr.
Qed.

(** ** C63: transformCurve moves the base; with identity corrections it moves
    the curve. *)
Theorem C63_transform : forall g (c : comp) (T : V),
  (forall ta va tb vb t, mb ta (gmul T va) tb (gmul T vb) t = gmul T (mb ta va tb vb t)) ->
  sane g (s_mgr (c_base c)) ->
  exists c', comp_transform eb g c T = Ok (g, c') /\ c_corr c' = c_corr c /\
    (forall t k b, ec (c_corr c) t = Ok k -> eb (c_base c) t = Ok b ->
       comp_evaluate eb ec c' t = Ok (gmul k (gmul T b))) /\
    (forall t, ec (c_corr c) t = Ok gone ->
       comp_evaluate eb ec c' t = omap (gmul T) (comp_evaluate eb ec c t)).
Proof.
  intros g c T Hl Sb.
  destruct (transform_spec mb g (c_base c) T Hmb Sb) as (b' & E & Sb' & _ & _ & Ec).
  exists (Comp b' (c_corr c)). split; [unfold comp_transform, pw_transform in *; rewrite E; reflexivity|]. split; [reflexivity|].
  pose proof (transform_evaluate mb (c_base c) b' T Hmb (proj1 Sb) (proj1 Sb') Hl Ec) as Ht. split.
  - intros t k b Ek Eb. unfold comp_evaluate. cbn [c_base c_corr]. rewrite Ek, Ht, Eb. reflexivity.
  - intros t Ek. unfold comp_evaluate. cbn [c_base c_corr]. rewrite Ek, Ht. cbn [bind].
    destruct (eb (c_base c) t); simpl; auto. now rewrite !gone_l.
Qed.

End Composition.

(** ** The hypotheses above are met *)

Section Examples.
Local Notation evn := (pw_evaluate nearer).
Existing Instance R_GroupOps.
Existing Instance R_GroupLaws.

(** Discrete curves satisfy what is asked of the two parts, and there is a
    composition with range [0, 2] and a correction 3 at time 2. *)
Lemma comp_exists : exists g (c : comp R R),
  starts (V := R) nearer /\ const_mid (V := R) nearer /\ (g < 100)%N /\
  sane g (s_mgr (c_base c)) /\ sane g (s_mgr (c_corr c)) /\
  contents (s_mgr (c_base c)) = [(0, 10); (2, 20)] /\ contents (s_mgr (c_corr c)) = [(0, 0); (2, 3)] /\
  s_pol (c_base c) = Policy 0 1 0 0 /\ s_pol (c_corr c) = Policy 0 1 0 0 /\
  min_time (s_mgr (c_base c)) = 0 /\ max_time (s_mgr (c_base c)) = 2 /\
  min_time (s_mgr (c_corr c)) = 0 /\ max_time (s_mgr (c_corr c)) = 2.
Proof.
  destruct (curve_exists [(0, 10); (2, 20)] (Policy 0 1 0 0)) as (g & b & Eg & Sb & Eb & Pb);
    [apply two_increasing; lra|reflexivity|].
  destruct (curve_exists [(0, 0); (2, 3)] (Policy 0 1 0 0)) as (g' & k & Eg' & Sk & Ek & Pk);
    [apply two_increasing; lra|reflexivity|].
  simpl in Eg, Eg'. subst g g'.
  exists 2%N, (Comp b k). cbn [c_base c_corr].
  split; [apply nearer_starts|]. split; [intros ?; intros; apply nearer_const|]. split; [lia|].
  do 6 (split; [assumption|]).
  split; [exact (contents_first _ _ _ _ Eb)|]. split; [exact (contents_max _ [(0, 10)] _ _ Eb)|].
  split; [exact (contents_first _ _ _ _ Ek)|]. exact (contents_max _ [(0, 0)] _ _ Ek).
Qed.

Example C50_extend_example : exists g (c : comp R R) g' c' out',
  sane g (s_mgr (c_base c)) /\ p_min (s_pol (c_base c)) = 1%Z /\ (g + 7 < 2 ^ 64)%N /\
  comp_extend evn g c [3] [7] [] = Ok (g', c', out') /\
  comp_evaluate evn evn c' 3 = Ok 7 /\ comp_evaluate evn evn c' 2 = Ok (3 + 20).
Proof.
  destruct comp_exists as (g & c & Hn & Hc & Hg & Sb & Sk & Eb & Ek & Pb & Pk & Mb & Xb & Mk & Xk).
  destruct (C62_extend_keeps_the_past nearer nearer Hn Hn g c 3 7 []) as (g' & c' & out' & E & _ & E3 & Es);
    unfold comp_min_time, comp_max_time; rewrite ?Pb, ?Pk, ?Eb, ?Ek, ?Mb, ?Xb, ?Mk, ?Xk; simpl; try lia; try lra; auto;
    try discriminate.
  exists g, c, g', c', out'. split; [auto|]. split; [now rewrite Pb|]. split; [lia|]. split; [exact E|].
  split; [exact E3|]. rewrite Es by (unfold comp_max_time; rewrite Xb; lra).
  unfold comp_evaluate. rewrite (pw_at nearer (c_corr c) 2 3 Hn (proj1 Sk)) by (rewrite Ek; simpl; auto).
  rewrite (pw_at nearer (c_base c) 2 20 Hn (proj1 Sb)) by (rewrite Eb; simpl; auto). reflexivity.
Qed.

Example C50_feed_example : exists g' (c' : comp R R) out',
  comp_feed evn 0%N (comp_set_ratio comp_new 4) [(0, 10); (2, 20)] [] = Ok (g', c', out') /\
  comp_evaluate evn evn c' 2 = Ok 20.
Proof.
  destruct (C50_feed (V := R) nearer nearer nearer_starts nearer_starts 4 [(0, 10); (2, 20)] 0%N [])
    as (g' & c' & out' & E & _ & _ & Ev & _); [intros ?; intros; apply nearer_const|lia|apply two_increasing; lra|
    simpl; lia|].
  exists g', c', out'. split; [exact E|]. apply Ev. simpl. auto.
Qed.

(** folding, resetting, resampling, setting a correction, setting the base and
    transforming that curve *)
Example C50_example : exists g (c : comp R R),
  comp_evaluate evn evn c 2 = Ok (3 + 20) /\
  (exists g' c', comp_fold evn evn g c = Ok (g', c') /\ comp_evaluate evn evn c' 2 = Ok (3 + 20) /\
     pw_evaluate nearer (c_base c') 2 = Ok (3 + 20)) /\
  (exists g' c', comp_reset_correction g c [2; 0] = Ok (g', c') /\ comp_evaluate evn evn c' 2 = Ok 20) /\
  comp_reset_correction g c [0; 1] = Abort /\
  (exists g' c', comp_set_correction_times evn g c [0; 1; 2] = Ok (g', c') /\
     comp_evaluate evn evn c' 2 = Ok (3 + 20)) /\
  (exists c', comp_set_correction g c 2 4 = Ok (g, c') /\ comp_evaluate evn evn c' 2 = Ok (4 + 20)) /\
  (exists c', comp_remove_correction c 0 = Ok c' /\ comp_evaluate evn evn c' 2 = Ok (3 + 20)) /\
  (exists g' c', comp_set_base g c [0; 2] [0; 1] = Ok (g', c') /\ comp_evaluate evn evn c' 2 = Ok (3 + 1)) /\
  (exists c', comp_transform evn g c 100 = Ok (g, c') /\ comp_evaluate evn evn c' 2 = Ok (3 + (100 + 20))).
Proof.
  destruct comp_exists as (g & c & Hn & Hc & Hg & Sb & Sk & Eb & Ek & Pb & Pk & Mb & Xb & Mk & Xk).
  assert (Tb : get_times (s_mgr (c_base c)) = [0; 2]) by now rewrite <- contents_times, Eb.
  assert (Tk : get_times (s_mgr (c_corr c)) = [0; 2]) by now rewrite <- contents_times, Ek.
  assert (Ekt : pw_evaluate nearer (c_corr c) 2 = Ok 3) by (apply pw_at; auto; [apply Sk|rewrite Ek; simpl; auto]).
  assert (Ebt : pw_evaluate nearer (c_base c) 2 = Ok 20) by (apply pw_at; auto; [apply Sb|rewrite Eb; simpl; auto]).
  assert (E2 : comp_evaluate evn evn c 2 = Ok (3 + 20)) by (unfold comp_evaluate; rewrite Ekt, Ebt; reflexivity).
  exists g, c. split; [exact E2|]. split; [|split; [|split; [|split; [|split; [|split; [|split]]]]]].
  - destruct (C50_fold nearer nearer Hn Hn g c Hc Sb Sk) as (g' & c' & E & _ & _ & _ & Et & Er);
      unfold comp_min_time, comp_max_time in *; rewrite ?contents_size, ?Eb, ?Ek, ?Mb, ?Xb, ?Mk, ?Xk; simpl; try lra; try lia;
      try discriminate.
    exists g', c'. split; [exact E|]. rewrite <- Er by (rewrite ?Mb, ?Xb; lra). rewrite Et by (rewrite Tb; simpl; auto). auto.
  - destruct (C50_reset nearer nearer Hn g c [2; 0] Hc Sb) as [(g' & c' & E & _ & _ & Ev) _];
      unfold comp_min_time, comp_max_time; [discriminate|simpl; lia| |].
    + rewrite Mb, Xb. split; [simpl; auto|]. split; [simpl; auto|]. simpl. intros t [<-|[<-|[]]]; lra.
    + exists g', c'. split; [exact E|]. now rewrite Ev.
  - apply (C50_reset nearer nearer Hn g c [0; 1] Hc Sb); [discriminate|simpl; lia|].
    unfold comp_min_time, comp_max_time. rewrite Mb, Xb. intros (_ & [X|[X|[]]] & _); lra.
  - destruct (C64_set_correction_times nearer nearer Hn g c [0; 1; 2] Sb Sk) as [(g' & c' & E & _ & _ & Ev) _];
      [rewrite Ek; discriminate|discriminate|simpl; lia| | |].
    + rewrite Mk, Xk. simpl. intros t [<-|[<-|[<-|[]]]]; lra.
    + unfold comp_min_time, comp_max_time. rewrite Mb, Xb.
      split; [simpl; auto|]. split; [simpl; auto|]. simpl. intros t [<-|[<-|[<-|[]]]]; lra.
    + exists g', c'. split; [exact E|]. rewrite Ev by (simpl; auto). exact E2.
  - destruct (C65_set_correction nearer nearer Hn g c 2 4 Sk) as [(c' & E & _ & _ & Ev & _) _]; [rewrite Tk; simpl; auto|].
    exists c'. split; [exact E|]. now rewrite Ev, Ebt.
  - destruct (C65_remove_correction nearer nearer Hn g c 0 Sk) as [(c' & E & _ & _ & Ev) _]; [rewrite Tk; simpl; auto|].
    exists c'. split; [exact E|]. rewrite Ev; [exact E2|lra|rewrite Tk; simpl; auto].
  - destruct (C66_set_base nearer nearer Hn g c [0; 2] [0; 1] Sk) as [(g' & c' & E & _ & _ & Ev) _];
      [rewrite Ek; discriminate|reflexivity|discriminate|simpl; lia| |].
    + rewrite Mk, Xk. split; [simpl; auto|]. split; [simpl; auto|]. simpl. intros t [<-|[<-|[]]]; lra.
    + exists g', c'. split; [exact E|]. rewrite (Ev 2 1), Ekt; [reflexivity|]. simpl.
      assert (Y : teq 2 2 = true) by now apply teq_R. now rewrite Y.
  - destruct (C63_transform nearer nearer Hn g c 100) as (c' & E & _ & Ev & _); [intros; apply nearer_left|exact Sb|].
    exists c'. split; [exact E|]. exact (Ev 2 3 20 Ekt Ebt).
Qed.

End Examples.

(** ** Counterexamples, computed with rational times and discrete curves *)

Section Counterexamples.
Local Notation evn := (pw_evaluate nearer).

Local Open Scope Q_scope.

(** Translations along a line. *)
Instance Z_GroupOps : GroupOps Z := { gone := 0%Z; gmul := Z.add; ginv := Z.opp }.
Instance Z_GroupLaws : GroupLaws Z.
Proof. split; simpl; intros; lia. Qed.

(** The maps x -> a + x and x -> a - x. *)
Definition flip := (bool * Z)%type.
Definition flip_z (b : bool) (x : Z) : Z := if b then (- x)%Z else x.
Instance flip_GroupOps : GroupOps flip := {
  gone := (false, 0%Z);
  gmul f h := (xorb (fst f) (fst h), (snd f + flip_z (fst f) (snd h))%Z);
  ginv f := (fst f, flip_z (negb (fst f)) (snd f)) }.
Instance flip_GroupLaws : GroupLaws flip.
Proof.
  split.
  - intros [[|] x] [[|] y] [[|] z]; simpl; f_equal; lia.
  - intros [[|] x]; simpl; f_equal; lia.
  - intros [[|] x]; simpl; f_equal; lia.
Qed.

Local Notation ev := (comp_evaluate (S := Q) evn evn).

(** A composition curve with correction ratio [n] after extending by [ms]. *)
Definition fed {V} `{GroupOps V} (n : Z) (ms : list (Q * V)) : outcome (N * comp Q V * list N) :=
  comp_feed evn 0%N (comp_set_ratio comp_new n) ms [].

(** ** C62 does not extend to other ratios of the correction curve: with ratio 2
    extending past the end moves the last correction and changes what the curve
    was before. *)
Theorem C62_ratio_refuted :
  exists g (c c1 : comp Q Z) g' c2 out out',
    fed 2 [(0, 0%Z); (1, 0%Z); (2, 0%Z)] = Ok (g, c, out) /\
    comp_set_correction g c 2 5%Z = Ok (g, c1) /\
    comp_max_time c1 = 2 /\ ev c1 2 = Ok 5%Z /\
    comp_extend evn g c1 [3] [0%Z] [] = Ok (g', c2, out') /\
    ev c2 2 = Ok 0%Z.
Proof.
  destruct (fed (V := Z) 2 [(0, 0%Z); (1, 0%Z); (2, 0%Z)]) as [[[g c] out]| | |] eqn:E; vm_compute in E; try discriminate E.
  injection E as <- <- <-.
  eexists _, _, _, _, _, _, _. split; [reflexivity|]. split; [vm_compute; reflexivity|].
  split; [vm_compute; reflexivity|]. split; [vm_compute; reflexivity|]. split; vm_compute; reflexivity.
Qed.

(** ** C67, false: a curve that has only been extended and cleared, with every call
    returning, can be evaluated on its whole range. The count of the sampling
    policy survives clear, and the next extensions move the last correction below
    the range of the base. *)
Theorem C67_coverage_refuted :
  exists g (c : comp Q Z) out g' c' out',
    fed 3 [(0, 0%Z); (1, 0%Z); (2, 0%Z)] = Ok (g, c, out) /\
    comp_feed evn g (comp_clear c) [(5, 0%Z); (- (3), 0%Z)] [] = Ok (g', c', out') /\
    comp_min_time c' = - (3) /\ comp_max_time c' = 5 /\ ev c' 5 = Abort.
Proof.
  destruct (fed (V := Z) 3 [(0, 0%Z); (1, 0%Z); (2, 0%Z)]) as [[[g c] out]| | |] eqn:E; vm_compute in E; try discriminate E.
  injection E as <- <- <-.
  eexists _, _, _, _, _, _. split; [reflexivity|]. split; [vm_compute; reflexivity|].
  split; [vm_compute; reflexivity|]. split; vm_compute; reflexivity.
Qed.

(** ** C50, false without times: resetCorrectionCurve({}) returns and leaves the
    corrections as they are. *)
Theorem C50_reset_without_times_refuted :
  exists g (c c1 : comp Q Z) out g' c2,
    fed 1 [(0, 0%Z); (1, 0%Z)] = Ok (g, c, out) /\
    comp_set_correction g c 1 5%Z = Ok (g, c1) /\
    comp_reset_correction g c1 [] = Ok (g', c2) /\
    pw_evaluate nearer (c_base c1) 1 = Ok 0%Z /\ ev c2 1 = Ok 5%Z.
Proof.
  destruct (fed (V := Z) 1 [(0, 0%Z); (1, 0%Z)]) as [[[g c] out]| | |] eqn:E; vm_compute in E; try discriminate E.
  injection E as <- <- <-.
  eexists _, _, _, _, _, _. split; [reflexivity|]. split; [vm_compute; reflexivity|].
  split; [vm_compute; reflexivity|]. split; vm_compute; reflexivity.
Qed.

(** ** C50, false between the times of the base: foldInCorrections leaves the curve
    unchanged. *)
Theorem C50_fold_between_refuted :
  exists g (c c1 c2 c3 : comp Q Z) out g1 g3,
    fed 1 [(0, 0%Z); (4, 0%Z)] = Ok (g, c, out) /\
    comp_set_correction_times evn g c [0; 1; 4] = Ok (g1, c1) /\
    comp_set_correction g1 c1 1 5%Z = Ok (g1, c2) /\
    comp_fold evn evn g1 c2 = Ok (g3, c3) /\
    ev c2 1 = Ok 5%Z /\ ev c3 1 = Ok 0%Z.
Proof.
  destruct (fed (V := Z) 1 [(0, 0%Z); (4, 0%Z)]) as [[[g c] out]| | |] eqn:E; vm_compute in E; try discriminate E.
  injection E as <- <- <-.
  eexists _, _, _, _, _, _, _, _. split; [reflexivity|]. split; [vm_compute; reflexivity|].
  split; [vm_compute; reflexivity|]. split; [vm_compute; reflexivity|]. split; vm_compute; reflexivity.
Qed.

(** ** C63, false with corrections: transformCurve(T) makes the value at every
    time T times the old one. *)
Theorem C63_corrections_refuted :
  exists g (c c1 c2 : comp Q flip) out g2 (T v w : flip),
    fed 1 [(0, gone); (1, gone)] = Ok (g, c, out) /\
    comp_set_correction g c 1 (true, 0%Z) = Ok (g, c1) /\
    comp_transform evn g c1 T = Ok (g2, c2) /\
    ev c1 1 = Ok v /\ ev c2 1 = Ok w /\ w <> gmul T v.
Proof.
  destruct (fed (V := flip) 1 [(0, gone); (1, gone)]) as [[[g c] out]| | |] eqn:E; vm_compute in E; try discriminate E.
  injection E as <- <- <-.
  eexists _, _, _, _, _, _, (false, 1%Z), _, _. split; [reflexivity|]. split; [vm_compute; reflexivity|].
  split; [vm_compute; reflexivity|]. split; [vm_compute; reflexivity|]. split; [vm_compute; reflexivity|].
  vm_compute. discriminate.
Qed.

(** ** C65, false: after removing a correction the curve can be evaluated where it
    could before. *)
Theorem C65_remove_refuted :
  exists g (c c1 : comp Q Z) out,
    fed 1 [(0, 0%Z); (1, 0%Z)] = Ok (g, c, out) /\
    comp_remove_correction c 1 = Ok c1 /\
    comp_max_time c1 = 1 /\ ev c 1 = Ok 0%Z /\ ev c1 1 = Abort.
Proof.
  destruct (fed (V := Z) 1 [(0, 0%Z); (1, 0%Z)]) as [[[g c] out]| | |] eqn:E; vm_compute in E; try discriminate E.
  injection E as <- <- <-.
  eexists _, _, _, _. split; [reflexivity|]. split; [vm_compute; reflexivity|].
  split; [vm_compute; reflexivity|]. split; vm_compute; reflexivity.
Qed.

End Counterexamples.
