(** * C87 - C90: clearing, functions without effect, checkContainer, sizes of a composition curve *)

From Coquelicot Require Import Coquelicot.
From Flocq Require Import IEEE754.BinarySingleNaN.
From Coq Require Import List Reals Lra Lia Bool Arith NArith ZArith QArith.
From Verif Require Import Base TimeOrder TimeInst KeyGen Manager ManagerSpec ManagerProofs ManagerProofs2
  ManagerProofs3 Props_Manager Num Spline Container ContainerSpec ContainerProofs Props_Container SplineCurves
  Sampling SamplingSpec SamplingProofs
  HermiteE3 HermiteSpec HermiteE3Proofs Props_HermiteE3 Quat HermiteSE3 HermiteSE3Proofs HermiteSE3Curve Props_HermiteSE3
  Discrete DiscreteSpec DiscreteProofs Props_Discrete Composition CompositionProofs Props_Composition SlerpSE3
  TimeB64 NumB64 Props_Binary64.
Import ListNotations.
Local Open Scope R_scope.

(** ** C87 *)

(** A cleared scalar curve: the observations and every later fit are those of a new curve. *)
Theorem C87_scalar : forall (c : scalar_curve R) (solve : solver R) o,
  sc_get_min_time (sc_clear c) = 0 /\ sc_get_max_time (sc_clear c) = 0 /\
  (forall t, sc_evaluate o (sc_clear c) t = Ok (true, 0)) /\
  (forall times values v0 a0 vT aT,
     sc_fit_boundary solve o (sc_clear c) times values v0 a0 vT aT =
     sc_fit_boundary solve o sc_new times values v0 a0 vT aT) /\
  (forall opts, sc_fit_options solve (sc_clear c) opts = sc_fit_options solve sc_new opts).
Proof.
  intros c solve o. split; [reflexivity|]. split.
  { unfold sc_get_max_time, sc_clear, reset, reset_time, get_container_duration. cbn. numR. ring. }
  split; [reflexivity|]. split; reflexivity.
Qed.

(** A cleared vector curve has the value zero everywhere and can be fitted like a new
    one of its dimension. *)
Theorem C87_vector : forall (c : vector_curve R) (solve : solver R),
  (forall t, vc_evaluate (vc_clear c) t = Ok (true, repeat 0 (length (vc_containers c)))) /\
  (forall times values v0 a0 vT aT,
     vc_fit_boundary solve (vc_clear c) times values v0 a0 vT aT =
     vc_fit_boundary solve (vc_new (length (vc_containers c))) times values v0 a0 vT aT).
Proof.
  intros c solve.
  assert (E : map reset (vc_containers c) = repeat c_new (length (vc_containers c))).
  { induction (vc_containers c) as [|k ks IH]; [reflexivity|]. cbn [map length repeat]. now rewrite IH. }
  split.
  - intros t. unfold vc_evaluate, vc_clear. cbn [vc_containers]. rewrite E.
    assert (F : forall n, for_each (fun k => get_position_at_time 5 k t) (repeat (@c_new R _) n) = Ok (repeat 0 n)).
    { induction n as [|n IH]; [reflexivity|]. cbn [repeat for_each].
      change (get_position_at_time 5 c_new t) with (Ok 0). cbn [bind]. now rewrite IH. }
    now rewrite F.
  - intros. unfold vc_fit_boundary, vc_clear, vc_new. cbn [vc_containers]. now rewrite E.
Qed.

Lemma e3_evaluate_contents (c c' : e3_curve R) t : contents c' = contents c ->
  e3_evaluate c' t = e3_evaluate c t /\
  (forall n, e3_evaluate_derivative c' t n = e3_evaluate_derivative c t n).
Proof.
  intros Hm.
  assert (F : Forall2 (similar (fun x : knot R => x)) (nodes c) (nodes c')).
  { apply similar_contents. unfold contents in Hm. rewrite Hm. rewrite map_map. reflexivity. }
  pose proof (similar_get_at _ c c' t F) as G. destruct (similar_times _ c c' F) as [E0 E1].
  unfold e3_evaluate_derivative, e3_evaluate_acceleration, e3_evaluate, first_coefficient. rewrite E0, E1.
  destruct (get_coefficients_at c t) as [[a b]|], (get_coefficients_at c' t) as [[a' b']|]; try contradiction.
  - destruct G as [[Ta Ca] [Tb Cb]]. cbn [fst snd] in *. rewrite Ta, Tb, Ca, Cb.
    destruct F as [|n n' l l' [_ En] _]; [split; reflexivity|]. rewrite En. split; reflexivity.
  - destruct F as [|n n' l l' [_ En] _]; [split; reflexivity|]. rewrite En. split; reflexivity.
Qed.

(** E3 curves, whose fit does not clear: after clear they are empty, and a fit gives
    the same curve as on a new one. *)
Theorem C87_e3 : forall (c : e3_curve R),
  e3_is_empty (e3_clear c) = true /\ e3_size (e3_clear c) = 0%nat /\
  (forall t, t <> 0 -> e3_evaluate (e3_clear c) t = Ok None) /\
  forall debug g ts ps d0 d1 out, length ts = length ps -> increasing_times ts ->
    (g + N.of_nat (length ts) < 2 ^ 64)%N ->
    exists g1 c1 o1 g2 c2 o2,
      e3_fit_with_derivatives debug g (e3_clear c) ts ps d0 d1 out = Ok (g1, c1, o1) /\
      e3_fit_with_derivatives debug g e3_new ts ps d0 d1 out = Ok (g2, c2, o2) /\
      get_times c1 = ts /\
      forall t, e3_evaluate c1 t = e3_evaluate c2 t /\
        (forall n, e3_evaluate_derivative c1 t n = e3_evaluate_derivative c2 t n).
Proof.
  intros c. split; [reflexivity|]. split; [reflexivity|]. split.
  { intros t Ht. destruct (C37_empty (e3_clear c) t eq_refl) as (_ & _ & X & _). now apply X. }
  intros debug g ts ps d0 d1 out Hl Hi Hg.
  destruct (e3_fit_spec debug g (e3_clear c) ts ps d0 d1 out) as (c1 & k1 & E1 & _ & _ & X1); auto.
  { apply clear_consistent. }
  destruct (e3_fit_spec debug g e3_new ts ps d0 d1 out) as (c2 & k2 & E2 & _ & _ & X2); auto.
  { apply consistent_empty. }
  do 6 eexists. split; [exact E1|]. split; [exact E2|]. split.
  - rewrite <- contents_times, X1. apply map_fst_combine. rewrite map_length, seq_length. lia.
  - intros t. apply e3_evaluate_contents. congruence.
Qed.

(** SE3 curves. *)
Theorem C87_se3 : forall K (c : se3_curve R),
  se3_is_empty (se3_clear c) = true /\ se3_size (se3_clear c) = 0%nat /\
  se3_min_time (se3_clear c) = 0 /\ se3_max_time (se3_clear c) = 0 /\
  (forall t, t <> 0 -> se3_evaluate K (se3_clear c) t = Ok None) /\
  (forall t, se3_evaluate_acceleration (se3_clear c) t = Ok None).
Proof.
  intros K c. destruct (C37_se3_empty K (se3_clear c) 1 eq_refl) as (A & B & _).
  split; [reflexivity|]. split; [reflexivity|]. split; [exact A|]. split; [exact B|]. split; [|reflexivity].
  intros t Ht. destruct (C37_se3_empty K (se3_clear c) t eq_refl) as (_ & _ & X & _). now apply X.
Qed.

Section Composition.
Context {V : Type} `{GroupLaws V}.
Local Notation curve := (@slerp_curve R V).
Local Notation comp := (comp R V).
Variables mb mc : @middle R V.
Local Notation eb := (pw_evaluate mb).
Local Notation ec := (pw_evaluate mc).

Lemma cleared_evaluate (mid : @middle R V) (k : curve) t : t <> 0 -> pw_evaluate mid (slerp_clear k) t = Abort.
Proof.
  intros Ht. unfold pw_evaluate, slerp_clear. cbn [s_mgr]. unfold clear, max_time, min_time. cbn [nodes last_node rev].
  destruct (neqb (tzero : R) t) eqn:E; [apply Reqb_eq in E; cbn in E; congruence|].
  destruct (neqb t (tzero : R)) eqn:E'; [apply Reqb_eq in E'; cbn in E'; congruence|]. reflexivity.
Qed.

(** Composition curves: base and corrections are empty, nothing can be evaluated. *)
Theorem C87_composition : forall c : comp,
  comp_is_empty (comp_clear c) = true /\ comp_size (comp_clear c) = 0%nat /\
  comp_base_size (comp_clear c) = 0%nat /\ comp_times (comp_clear c) = [] /\ comp_base_times (comp_clear c) = [] /\
  forall t, t <> 0 -> comp_evaluate eb ec (comp_clear c) t = Abort.
Proof.
  intros c. repeat (split; [reflexivity|]). intros t Ht. unfold comp_evaluate, comp_clear. cbn [c_corr c_base].
  now rewrite cleared_evaluate.
Qed.

(** ** C90 *)

Theorem C90_observers : forall c : comp,
  comp_size c = length (comp_times c) /\ comp_correction_size c = length (comp_times c) /\
  comp_base_size c = length (comp_base_times c) /\
  (comp_is_empty c = true <-> comp_base_times c = []) /\
  (comp_size c = 0%nat <-> forall t, ~ In t (map fst (contents (s_mgr (c_corr c))))).
Proof.
  intros c. unfold comp_size, comp_correction_size, comp_base_size, comp_times, comp_base_times, comp_is_empty.
  unfold get_times. rewrite !map_length. split; [reflexivity|]. split; [reflexivity|]. split; [reflexivity|].
  split.
  - unfold empty. destruct (nodes (s_mgr (c_base c))); cbn; split; congruence.
  - rewrite contents_size. destruct (contents (s_mgr (c_corr c))) as [|x l]; cbn; split; auto; [discriminate|].
    intros X. exfalso. apply (X (fst x)). now left.
Qed.

(** The base times in a window that ends with the base, the first coefficient missing; other windows abort. *)
Theorem C90_base_window : forall (c : comp) a b, consistent (s_mgr (c_base c)) -> (2 <= length (comp_base_times c))%nat ->
  let first := hd 0 (comp_base_times c) in
  (b = last (comp_base_times c) 0 -> first <= a ->
     comp_base_window c a b = Ok (filter (fun t => if Rle_dec a t then true else false) (tl (comp_base_times c)))) /\
  (b <> last (comp_base_times c) 0 \/ a < first -> comp_base_window c a b = Abort).
Proof.
  intros c a b Hc Hs. cbv zeta. unfold comp_base_window, comp_base_times in *. set (m := s_mgr (c_base c)) in *.
  destruct (C05_listing m Hc) as (_ & _ & _ & _ & _ & _ & _ & Emin & Emax).
  assert (Hz : (2 <= size m)%nat) by (unfold get_times, size in *; now rewrite map_length in Hs).
  change (hd 0 (get_times m)) with (hd tzero (get_times m)). change (last (get_times m) 0) with (last (get_times m) tzero).
  rewrite <- Emin, <- Emax. split.
  - intros -> Ha. rewrite window_spec; [|first [assumption | now apply tle_R | now apply teq_R]..].
    f_equal. apply filter_ext. intros t. destruct (Rle_dec a t) as [L|L]; [now apply tle_R|].
    apply not_true_is_false. intros X. apply L. now apply tle_R.
  - intros Hx. apply (C10_abort_and_ub m a b). destruct Hx as [Hx|Hx].
    + left. apply not_true_is_false. intros X. apply Hx. now apply teq_R.
    + right. now apply tlt_R.
Qed.

(** The times of the corrections after the first extension. *)
Definition first_corrections (t : R) : list R :=
  if Rlt_dec 0 t then [0; t] else if Rlt_dec t 0 then [t; 0] else [t].

Hypothesis Hmb : starts mb.
Hypothesis Hmc : starts mc.

Lemma cover_empty g (k : curve) a b : sane g (s_mgr k) -> contents (s_mgr k) = [] -> (g + 3 < key_mod)%N -> a <= b ->
  exists g' m', comp_cover ec g k a b = Ok (g', Slerp m' (s_pol k)) /\ sane g' m' /\ (g <= g' <= g + 3)%N /\
    contents m' = if Rlt_dec a b then [(a, gone); (b, gone)] else [(a, gone)].
Proof.
  intros Hs Ek Hg Hab. unfold comp_cover. rewrite contents_empty, Ek.
  destruct (extend_insert g k [a] [gone] []) as (g1 & m1 & o1 & E1 & Hs1 & Hg1 & Ec1); auto.
  { simpl. lia. } { right. rewrite contents_size, Ek. simpl. lia. }
  assert (Hg1' : (g <= g1 <= g + 1)%N) by (apply extend_gen in E1; simpl in *; lia).
  rewrite E1. cbn [bind]. cbn [s_mgr]. rewrite Ek in Ec1. simpl in Ec1.
  assert (Em : max_time m1 = a) by now apply (contents_max m1 [] a gone).
  assert (En : min_time m1 = a) by now apply (contents_first m1 a gone []).
  rewrite Em. numR. destruct (Rlt_dec a b) as [Eab|Eab].
  - rewrite (proj2 (Rltb_lt a b) Eab).
    rewrite (pw_at mc (Slerp m1 (s_pol k)) a gone); auto; [|apply Hs1|simpl; rewrite Ec1; now left].
    cbn [bind app].
    destruct (extend_insert g1 (Slerp m1 (s_pol k)) [a; b] [gone; gone] []) as (g2 & m2 & o2 & E2 & Hs2 & Hg2 & Ec2); auto.
    { simpl. lia. } { left. discriminate. }
    assert (Hg2' : (g1 <= g2 <= g1 + 2)%N) by (apply extend_gen in E2; simpl in *; lia).
    rewrite E2. cbn [bind s_mgr s_pol]. simpl s_mgr in Ec2. rewrite Ec1 in Ec2.
    change [(a, gone)] with (al_insert a gone (@nil (R * V))) in Ec2. simpl combine in Ec2. cbn [fold_left fst snd] in Ec2.
    rewrite al_insert_two in Ec2 by auto.
    assert (En2 : min_time m2 = a) by now apply (contents_first m2 a gone [(b, gone)]).
    rewrite En2. replace (Rltb a a) with false by (symmetry; apply Rltb_ge; lra).
    do 2 eexists. split; [reflexivity|]. split; [exact Hs2|]. split; [lia|]. exact Ec2.
  - replace (Rltb a b) with false by (symmetry; apply Rltb_ge; lra). cbn [bind]. cbn [s_mgr]. rewrite En.
    replace (Rltb a a) with false by (symmetry; apply Rltb_ge; lra).
    do 2 eexists. split; [reflexivity|]. split; [exact Hs1|]. split; [lia|]. exact Ec1.
Qed.

(** The first extension of a new curve: the range is the one measurement, but a
    correction at time zero is made as well, and size and times count it. *)
Theorem C90_first_extension : forall (n : Z) (t : R) (v : V) (g : N) out, (g + 4 < 2 ^ 64)%N ->
  exists g' c' out', comp_extend ec g (comp_set_ratio comp_new n) [t] [v] out = Ok (g', c', out') /\
    comp_is_empty c' = false /\ comp_base_times c' = [t] /\ comp_min_time c' = t /\ comp_max_time c' = t /\
    comp_times c' = first_corrections t /\ comp_size c' = length (first_corrections t) /\
    comp_base_size c' = 1%nat /\
    comp_evaluate eb ec c' t = Ok v /\
    (forall t', t' <> t -> comp_evaluate eb ec c' t' = Abort).
Proof.
  intros n t v g out Hg. set (c0 := comp_set_ratio comp_new n).
  set (a := if Rlt_dec t 0 then t else 0). set (b := if Rlt_dec 0 t then t else 0).
  assert (Hab : a <= b /\ a <= t <= b) by (unfold a, b; destruct (Rlt_dec t 0), (Rlt_dec 0 t); lra).
  assert (Hse : sane g (mgr_empty : mgr R V)) by (split; [apply consistent_empty|constructor]).
  destruct (cover_empty g (c_corr c0) a b Hse eq_refl ltac:(unfold key_mod; lia) ltac:(tauto))
    as (g1 & m1 & E1 & S1 & G1 & C1).
  set (k1 := Slerp m1 (s_pol (c_corr c0))) in *.
  assert (Hin : In (t, gone) (contents m1)).
  { rewrite C1. unfold a, b. destruct (Rlt_dec t 0), (Rlt_dec 0 t); try lra.
    - destruct (Rlt_dec t 0); [now left|lra].
    - destruct (Rlt_dec 0 t); [right; now left|lra].
    - assert (t = 0) as -> by lra. destruct (Rlt_dec 0 0); [lra|now left]. }
  assert (Ekt : ec k1 t = Ok gone) by (apply pw_at; auto; apply S1).
  destruct (extend_insert g1 (c_base c0) [t] [v] out) as (g2 & m2 & o2 & E2 & S2 & G2 & C2); auto.
  { split; [apply consistent_empty|constructor]. } { unfold key_mod. simpl. lia. }
  cbn in C2.
  assert (Ev : gmul (ginv gone) v = v).
  { rewrite <- (gone_l (ginv gone)), ginv_r. apply gone_l. }
  do 3 eexists. split.
  { unfold comp_extend. cbv zeta. change (empty (s_mgr (c_base c0))) with true. cbv iota.
    replace (if nltb (nofZ 0) t then t else nofZ 0) with b
      by (unfold b; numR; destruct (Rlt_dec 0 t) as [Hl|Hl];
          [rewrite (proj2 (Rltb_lt 0 t) Hl)|rewrite (proj2 (Rltb_ge 0 t)) by lra]; reflexivity).
    replace (if nltb t (nofZ 0) then t else nofZ 0) with a
      by (unfold a; numR; destruct (Rlt_dec t 0) as [Hl|Hl];
          [rewrite (proj2 (Rltb_lt t 0) Hl)|rewrite (proj2 (Rltb_ge t 0)) by lra]; reflexivity).
    rewrite E1. cbn [bind]. rewrite Ekt. cbn [bind]. rewrite Ev.
    rewrite E2. cbn [bind]. reflexivity. }
  unfold comp_is_empty, comp_base_times, comp_min_time, comp_max_time, comp_times, comp_size, comp_base_size.
  cbn [c_base c_corr s_mgr].
  assert (Et : get_times (s_mgr k1) = first_corrections t).
  { cbn [s_mgr k1]. rewrite <- contents_times, C1. unfold a, b, first_corrections.
    destruct (Rlt_dec t 0), (Rlt_dec 0 t); try lra.
    - destruct (Rlt_dec t 0); [reflexivity|lra].
    - destruct (Rlt_dec 0 t); [reflexivity|lra].
    - assert (t = 0) as -> by lra. destruct (Rlt_dec 0 0); [lra|reflexivity]. }
  split; [rewrite contents_empty, C2; reflexivity|].
  split; [rewrite <- contents_times, C2; reflexivity|].
  assert (Emin : min_time m2 = t) by now apply (contents_first m2 t v []).
  assert (Emax : max_time m2 = t) by now apply (contents_max m2 [] t v).
  split; [exact Emin|]. split; [exact Emax|].
  split; [exact Et|]. split; [rewrite <- Et; unfold get_times; now rewrite map_length|].
  split; [rewrite contents_size, C2; reflexivity|].
  assert (Ebt : eb (Slerp m2 (s_pol (c_base c0))) t = Ok v).
  { apply pw_at; auto; [apply S2|]. cbn [s_mgr]. rewrite C2. now left. }
  split.
  - unfold comp_evaluate. cbn [c_base c_corr]. rewrite Ekt. cbn [bind]. rewrite Ebt. cbn [bind]. now rewrite gone_l.
  - intros t' Ht'. unfold comp_evaluate. cbn [c_base c_corr].
    assert (Hk : contents m1 <> []) by (intros X; rewrite X in Hin; destruct Hin).
    assert (Hb : eb (Slerp m2 (s_pol (c_base c0))) t' = Abort).
    { apply pw_outside; [apply S2|cbn [s_mgr]; rewrite C2; discriminate|]. cbn [s_mgr]. rewrite Emin, Emax. lra. }
    destruct (Rlt_le_dec t' (min_time m1)); [|destruct (Rlt_le_dec (max_time m1) t')].
    + rewrite (pw_outside mc k1 t'); [reflexivity|apply S1|exact Hk|left; cbn; lra].
    + rewrite (pw_outside mc k1 t'); [reflexivity|apply S1|exact Hk|right; cbn; lra].
    + destruct (pw_defined mc k1 t' Hmc) as [w Ew]; [apply S1|exact Hk|cbn; lra|]. rewrite Ew. cbn [bind]. now rewrite Hb.
Qed.

(** ** C50: extend takes single measurements *)
Theorem C50_single_measurements : forall (ev : curve -> R -> outcome V) g (c : comp) ts vs out,
  length ts <> 1%nat \/ length vs <> 1%nat -> comp_extend ev g c ts vs out = Abort /\ comp_fit ev g c ts vs out = Abort.
Proof.
  intros ev g c ts vs out Hl. unfold comp_fit.
  destruct ts as [|t [|t' ts]], vs as [|v [|v' vs]]; try (split; reflexivity). cbn in Hl. lia.
Qed.
End Composition.

Section Q_example.
Existing Instance Z_GroupOps.

(** The claim that the times reported by getCurveTimes are between getMinTime and
    getMaxTime is false. *)
Theorem C90_times_in_range_refuted :
  exists g (c : Composition.comp Q Z) out,
    fed 1 [(5, 0%Z)]%Q = Ok (g, c, out) /\ comp_times c = [0; 5]%Q /\ comp_size c = 2%nat /\
    comp_base_size c = 1%nat /\ comp_min_time c = (5)%Q /\ comp_max_time c = (5)%Q.
Proof.
  destruct (fed (V := Z) 1 [(5, 0%Z)]%Q) as [[[g c] out]| | |] eqn:E; vm_compute in E; try discriminate E.
  injection E as <- <- <-. eexists _, _, _. split; [reflexivity|]. repeat split.
Qed.

End Q_example.

(** ** C88 *)

(** extend of an E3 curve changes nothing that can be observed. *)
Theorem C88_e3_ignored : forall (c : e3_curve R) ts vs t,
  e3_evaluate (e3_extend c ts vs) t = e3_evaluate c t /\
  get_times (e3_extend c ts vs) = get_times c /\ get_keys (e3_extend c ts vs) = get_keys c.
Proof. intros. repeat split. Qed.

(** So the contract of Curve::extend, that the curve has the given value at the given
    time afterwards, is not met. *)
Theorem C88_e3_extend_refuted :
  ~ (forall (c : e3_curve R) t v, consistent c -> e3_evaluate (e3_extend c [t] [v]) t = Ok (Some v)).
Proof.
  intros X. specialize (X e3_new 1 (V3 0 0 0) consistent_empty).
  destruct (C88_e3_ignored e3_new [1] [V3 0 0 0] 1) as (E & _). rewrite E in X.
  destruct (C37_empty e3_new 1 eq_refl) as (_ & _ & Y & _). destruct (Y ltac:(lra)) as [Y' _]. congruence.
Qed.

(** The other fitted curves raise an exception, without looking at the data; so does the
    fit of a vector curve to options, and a scalar curve cannot be transformed. *)
Theorem C88_unsupported : forall (c : se3_curve R) ts vs (s : scalar_curve R) (u : vector_curve R) times values vectors opts v,
  se3_extend c ts vs = Throw /\ sc_extend s times values = Throw /\
  vc_extend u times vectors = Throw /\ vc_fit_options u opts = Throw /\ sc_transform s v = Abort.
Proof. repeat split. Qed.

(** ** C33: other derivative orders *)

(** A vector curve has derivatives of order 1 and 2 only; asked for another one it reports
    failure and leaves the output alone. *)
Theorem C33_orders : forall (c : vector_curve R) old t n, n <> 1%Z -> n <> 2%Z -> vc_containers c <> [] ->
  vc_evaluate_derivative c old t n = Ok (false, old).
Proof.
  intros c old t n H1 H2 Hc. unfold vc_evaluate_derivative.
  destruct (Z.eqb_spec n 1); [congruence|]. destruct (Z.eqb_spec n 2); [congruence|].
  destruct (vc_containers c); [congruence|reflexivity].
Qed.

(** ** C89 *)

(** What checkContainer accepts, with real numbers. *)
Theorem C89_accepts : forall c : container R,
  check_container c = true <->
  0 <= get_container_time c <= get_container_duration c /\ (0 <= get_active_spline_index c)%Z /\
  Forall (fun s => 0 <= s_duration s) (c_splines c).
Proof.
  intros c. unfold check_container, get_container_time, get_container_duration, get_active_spline_index. numR.
  destruct (Rltb (c_time c) 0) eqn:E1; [apply Rltb_lt in E1; split; [discriminate|intros ((? & ?) & _); lra]|apply Rltb_ge in E1].
  destruct (Rltb (c_duration c) 0) eqn:E2; [apply Rltb_lt in E2; split; [discriminate|intros ((? & ?) & _); lra]|apply Rltb_ge in E2].
  destruct (Rltb (c_duration c) (c_time c)) eqn:E3; [apply Rltb_lt in E3; split; [discriminate|intros ((? & ?) & _); lra]|apply Rltb_ge in E3].
  destruct (Z.ltb_spec (c_active c) 0) as [E4|E4]; [split; [discriminate|intros (_ & ? & _); lia]|].
  rewrite forallb_forall, Forall_forall. split.
  - intros X. split; [lra|]. split; [lia|]. intros s Hs. specialize (X s Hs).
    apply andb_true_iff in X as [X _]. now apply Rleb_le in X.
  - intros (_ & _ & X) s Hs. apply andb_true_iff. split; [apply Rleb_le; now apply X|].
    apply forallb_forall. intros x _. now apply (proj2 (Reqb_eq x x)).
Qed.

Lemma advance_time_grows (c c' : container R) b dt : 0 <= dt -> advance c dt = Ok (b, c') -> c_time c <= c_time c'.
Proof.
  intros Hdt E. unfold advance in E. destruct (_ || _); [injection E as _ <-; lra|].
  apply bind_ok_inv in E as (s & _ & E). destruct (nleb _ _); injection E as _ <-; cbn; numR; lra.
Qed.

Lemma advance_all_time_grows dts : forall c c' : container R, Forall (fun dt => 0 <= dt) dts ->
  advance_all c dts = Ok c' -> c_time c <= c_time c'.
Proof.
  induction dts as [|dt dts IH]; intros c c' Hall E.
  - injection E as <-. lra.
  - inversion Hall; subst. unfold advance_all in E. cbn [foldM] in E. apply bind_ok_inv in E as (c1 & E1 & E).
    apply bind_ok_inv in E1 as ([b c2] & E1 & E2). injection E2 as <-.
    apply advance_time_grows in E1; auto. apply IH in E; auto. lra.
Qed.

(** Playing a good container with small steps: the check accepts it until a step passes
    the end. *)
Theorem C89_stepping : forall (c : container R) dts,
  c_splines c <> [] -> positive_durations (c_splines c) -> countable_splines (c_splines c) ->
  c_duration c = total (c_splines c) ->
  Forall (fun dt => 0 <= dt /\ Forall (fun s => dt <= s_duration s) (c_splines c)) dts ->
  exists c', advance_all (reset_time c) dts = Ok c' /\
    (check_container c' = true <-> get_container_time c' <= total (c_splines c)).
Proof.
  intros c dts Hl Hp Hc Hd Hall.
  destruct (advance_all_stepping dts (reset_time c)) as (c' & E & Hst & Es); auto.
  { apply stepping_initial; auto. }
  exists c'. split; [exact E|]. rewrite C89_accepts. cbn in Es.
  apply advance_all_time_grows in E; [|eapply Forall_impl; [|exact Hall]; cbn; tauto]. cbn in E.
  destruct Hst as [Hd' Hst]. unfold get_container_duration, get_container_time, get_active_spline_index.
  rewrite Hd'. rewrite Es at 1 2. split; [tauto|]. intros Ht. split; [lra|]. split.
  - destruct Hst as [(n & _ & Ea & _)|([Ea|Ea] & _)]; rewrite Ea; [lia|unfold c_size; lia|].
    unfold c_size. rewrite Es. destruct (c_splines c); [congruence|cbn [length]; lia].
  - eapply Forall_impl; [|exact Hp]. cbn. intros; lra.
Qed.

(** A container whose time is past its duration stays as it is under advance, and the
    check rejects it. *)
Theorem C89_past_the_end : forall (c : container R) dts, get_container_duration c < get_container_time c ->
  advance_all c dts = Ok c /\ check_container c = false.
Proof.
  intros c dts Ht. unfold get_container_duration, get_container_time in Ht. split.
  - induction dts as [|dt dts IH]; [reflexivity|]. unfold advance_all in *. cbn [foldM].
    assert (E : advance c dt = Ok (false, c)).
    { unfold advance. numR. rewrite (proj2 (Rleb_le (c_duration c) (c_time c))) by lra. now rewrite orb_true_r. }
    rewrite E. cbn [bind]. exact IH.
  - destruct (check_container c) eqn:E; [|reflexivity]. apply C89_accepts in E as ((_ & E) & _).
    unfold get_container_duration, get_container_time in E. lra.
Qed.

(** So the claim that a container with proper splines that is only advanced passes the
    check is false: the last step usually goes past the end. *)
Theorem C89_played_refuted :
  ~ (forall (c : container R) dts c', c_splines c <> [] -> positive_durations (c_splines c) ->
       countable_splines (c_splines c) -> c_duration c = total (c_splines c) ->
       Forall (fun dt => 0 <= dt /\ Forall (fun s => dt <= s_duration s) (c_splines c)) dts ->
       advance_all (reset_time c) dts = Ok c' -> check_container c' = true).
Proof.
  intros X. set (c := add_spline c_new ramp).
  assert (Hl : c_splines c <> []) by discriminate.
  assert (Hp : positive_durations (c_splines c)) by (repeat constructor; cbn; lra).
  assert (Hc : countable_splines (c_splines c)) by reflexivity.
  assert (Hd : c_duration c = total (c_splines c)) by (cbn; lra).
  assert (Hall : forall n, Forall (fun dt => 0 <= dt /\ Forall (fun s => dt <= s_duration s) (c_splines c)) (repeat (3/4) n)).
  { intros n. apply Forall_forall. intros x Hx. apply repeat_spec in Hx. subst x. repeat constructor; cbn; lra. }
  destruct (C24_time c [] (3/4) (reset_time c) Hl Hp Hc Hd (Hall 1%nat) eq_refl) as (b1 & c1 & E1 & B1 & T1).
  assert (E1' : advance_all (reset_time c) [3/4] = Ok c1) by (unfold advance_all; cbn [foldM]; rewrite E1; reflexivity).
  destruct (C24_time c [3/4] (3/4) c1 Hl Hp Hc Hd (Hall 2%nat) E1') as (b2 & c2 & E2 & B2 & T2).
  assert (E2' : advance_all (reset_time c) [3/4; 3/4] = Ok c2)
    by (unfold advance_all; cbn [foldM]; rewrite E1; cbn [bind]; rewrite E2; reflexivity).
  assert (Tot : total (c_splines c) = 1) by (cbn; lra). rewrite Tot in B1, B2.
  assert (T0 : get_container_time (reset_time c) = 0) by reflexivity. rewrite T0 in *.
  rewrite (proj2 B1) in T1 by lra. assert (H1 : get_container_time c1 < 1) by lra.
  rewrite (proj2 B2 H1) in T2.
  destruct (C89_stepping c [3/4; 3/4] Hl Hp Hc Hd (Hall 2%nat)) as (c' & E' & Hck).
  rewrite E2' in E'. injection E' as <-.
  pose proof (proj1 Hck (X _ _ _ Hl Hp Hc Hd (Hall 2%nat) E2')) as Ht. rewrite Tot in Ht. lra.
Qed.

(** With doubles: a coefficient that is not a number is found. *)
Theorem C89_binary64_nan_coefficient : forall (c : container b64) s x,
  In s (c_splines c) -> In x (s_coefs s) -> is_nan x = true -> check_container c = false.
Proof.
  intros c s x Hs Hx Hn. unfold check_container. repeat (destruct (nltb _ _); [reflexivity|]).
  destruct (_ <? _)%Z; [reflexivity|]. apply not_true_is_false. rewrite forallb_forall. intros X.
  specialize (X s Hs). apply andb_true_iff in X as [_ X]. rewrite forallb_forall in X. specialize (X x Hx).
  destruct x; try discriminate.
Qed.

(** A duration that is not a number is not found, nor is the time of the container. *)
Theorem C89_binary64_nan_duration_refuted :
  ~ (forall c : container b64, check_container c = true ->
       is_nan (get_container_time c) = false /\ is_nan (get_container_duration c) = false /\
       Forall (fun s => is_nan (s_duration s) = false) (c_splines c)).
Proof.
  intros X.
  set (c := set_container_time (add_spline c_new (spline_of [dbl 1; dbl 0] B754_nan)) B754_nan).
  destruct (X c ltac:(vm_compute; reflexivity)) as (Y & _). vm_compute in Y. discriminate.
Qed.

(** ** Examples *)

Example C87_example : increasing_times [0; 1; 3] /\
  length [0; 1; 3] = length [V3 0 0 0; V3 1 0 0; V3 5 0 (0 : R)] /\ (7 + N.of_nat (length [0; 1; 3]) < 2 ^ 64)%N.
Proof.
  split; [intros [|[|i]] L; unfold at_knot; simpl in *; try lra; lia|]. split; [reflexivity|vm_compute; reflexivity].
Qed.

Section Group.
Existing Instance R_GroupOps. Existing Instance R_GroupLaws.

Example C90_example : exists g' (c' : Composition.comp R R) out',
  comp_extend (pw_evaluate nearer) 0 (comp_set_ratio comp_new 3) [5] [2] [] = Ok (g', c', out') /\
  comp_times c' = [0; 5] /\ comp_size c' = 2%nat /\ comp_base_size c' = 1%nat /\
  comp_evaluate (pw_evaluate nearer) (pw_evaluate nearer) c' 5 = Ok 2 /\
  comp_evaluate (pw_evaluate nearer) (pw_evaluate nearer) c' 0 = Abort.
Proof.
  destruct (C90_first_extension nearer nearer nearer_starts nearer_starts 3 5 2 0 []) as
    (g' & c' & out' & E & _ & _ & _ & _ & T & L & B & V & W); [reflexivity|].
  exists g', c', out'. split; [exact E|].
  assert (F : first_corrections 5 = [0; 5]) by (unfold first_corrections; destruct (Rlt_dec 0 5); [reflexivity|lra]).
  rewrite F in T, L. split; [exact T|]. split; [exact L|]. split; [exact B|]. split; [exact V|]. apply W. lra.
Qed.

Example C90_window_example : exists c : Composition.comp R R,
  consistent (s_mgr (c_base c)) /\ (2 <= length (comp_base_times c))%nat /\
  comp_base_window c 1 2 = Ok [2] /\ comp_base_window c 0 2 = Ok [2] /\ comp_base_window c 0 1 = Abort.
Proof.
  destruct (curve_exists [(0, 10); (2, 20)] (Policy 0 1 0 0)) as (g & c & _ & [Hc _] & Ec & _);
    [apply two_increasing; lra|reflexivity|].
  exists (Comp c c). assert (T : comp_base_times (Comp c c) = [0; 2]).
  { unfold comp_base_times. cbn [c_base]. rewrite <- contents_times, Ec. reflexivity. }
  split; [exact Hc|]. split; [rewrite T; cbn; lia|].
  assert (L : (2 <= length (comp_base_times (Comp c c)))%nat) by (rewrite T; cbn; lia).
  pose proof (fun a b => C90_base_window (Comp c c) a b Hc L) as W. cbv zeta in W. rewrite T in W. cbn [hd last tl filter] in W.
  split; [|split].
  - destruct (W 1 2) as [A _]. rewrite A by lra. destruct (Rle_dec 1 2); [reflexivity|lra].
  - destruct (W 0 2) as [A _]. rewrite A by lra. destruct (Rle_dec 0 2); [reflexivity|lra].
  - destruct (W 0 1) as [_ A]. apply A. left. lra.
Qed.

Example C50_single_example :
  comp_extend (V := R) (pw_evaluate nearer) 0 comp_new [1; 2] [3; 4] [] = Abort.
Proof. apply (C50_single_measurements (pw_evaluate nearer)). left. discriminate. Qed.
End Group.

Example C89_example : check_container two = true.
Proof.
  apply C89_accepts. cbn. split; [numR; lra|]. split; [lia|]. repeat constructor; cbn; lra.
Qed.

Example C89_past_example : check_container (set_container_time two 3) = false.
Proof.
  apply (C89_past_the_end (set_container_time two 3) []).
  destruct (C24_set_time 1 two 3 eq_refl) as (E & _). rewrite E. 
  assert (Ed : get_container_duration (set_container_time two 3) = c_duration two).
  { unfold set_container_time. destruct (active_index_at two 3 (c_offset two)). reflexivity. }
  rewrite Ed. cbn. lra.
Qed.

Example C33_orders_example : vc_evaluate_derivative (vc_new 2 : vector_curve R) [7; 8] 1 3 = Ok (false, [7; 8]).
Proof. apply C33_orders; [lia|lia|discriminate]. Qed.

Print Assumptions C87_scalar.
Print Assumptions C87_vector.
Print Assumptions C87_e3.
Print Assumptions C87_se3.
Print Assumptions C87_composition.
Print Assumptions C88_e3_ignored.
Print Assumptions C88_unsupported.
Print Assumptions C89_accepts.
Print Assumptions C89_stepping.
Print Assumptions C89_past_the_end.
Print Assumptions C90_observers.
Print Assumptions C90_base_window.
Print Assumptions C90_first_extension.
