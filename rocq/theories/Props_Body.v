(** * C111: another frame on the body, other units of time *)

From Coquelicot Require Import Coquelicot.
From Coq Require Import List Bool Arith NArith ZArith Reals Lra Lia Psatz.
From Verif Require Import Base TimeOrder TimeInst KeyGen Manager ManagerSpec ManagerProofs ManagerProofs2 ManagerProofs3 Num Sampling SamplingSpec SamplingProofs
  HermiteE3 HermiteSpec HermiteE3Proofs Props_HermiteE3 Props_Hermite2 Quat QuatSpec QuatProofs QuatLog QuatDist HermiteSE3 HermiteSE3Spec
  HermiteSE3Proofs HermiteSE3Curve HermiteSE3Motion Props_HermiteSE3 Props_HalfTurn Props_Speed Props_Reverse.
Import ListNotations.
Local Open Scope R_scope.

(** ** Specification *)

(** The pose of a frame that is turned by [r] against the body. *)
Definition remounted (r : quat R) (p : pose R) : pose R := Pose (p_pos p) (qmul (p_rot p) r).
(** Velocities in a unit of time of which [al] make a second. *)
Definition slower (al : R) (w : twist R) : twist R := Twist (HermiteSpec.scaled (/ al) (t_lin w)) (HermiteSpec.scaled (/ al) (t_ang w)).

(** What the curve stores for such a pose. *)
Definition remounted_knot (r : quat R) (al : R) (k : pose R * twist R) : pose R * twist R := (remounted r (fst k), slower al (snd k)).
(** A curve of such poses, [al] times as long and beginning [s] later. *)
Definition remounted_curve (r : quat R) (al s : R) (c c' : se3_curve R) : Prop :=
  contents (h_mgr c') = map (fun tk => (al * fst tk + s, remounted_knot r al (snd tk))) (contents (h_mgr c)).
(** The pose of a point of the body at [l] from its origin. *)
Definition carried (l : vec3 R) (p : pose R) : pose R := Pose (HermiteE3.vadd (p_pos p) (rotation_matrix (p_rot p) l)) (p_rot p).

(** ** Look-up in curves with other times *)

Section Scaled.
Variables (al s : R) (f : pose R * twist R -> pose R * twist R).
Hypothesis Ha : 0 < al.

Let similar (n n' : node R (pose R * twist R)) : Prop := n_time n' = al * n_time n + s /\ n_coef n' = f (n_coef n).
Let opt_similar (x y : option (node R (pose R * twist R) * node R (pose R * twist R))) : Prop :=
  match x, y with Some a, Some b => similar (fst a) (fst b) /\ similar (snd a) (snd b) | None, None => True | _, _ => False end.

Lemma scaled_lt x y : tlt (al * x + s) (al * y + s) = tlt x y.
Proof.
  destruct (tlt x y) eqn:E.
  - apply tlt_R. apply tlt_R in E. nra.
  - destruct (tlt (al * x + s) (al * y + s)) eqn:E'; [|reflexivity]. apply tlt_R in E'.
    assert (x < y) by nra. apply tlt_R in H. congruence.
Qed.

Lemma scaled_eq x y : teq (al * x + s) (al * y + s) = teq x y.
Proof.
  destruct (teq x y) eqn:E.
  - apply teq_R in E. subst. now apply teq_R.
  - destruct (teq (al * x + s) (al * y + s)) eqn:E'; [|reflexivity]. apply teq_R in E'.
    assert (x = y) by nra. apply teq_R in H. congruence.
Qed.

Lemma same_R (a b : R) : neqb a b = true <-> a = b.
Proof. simpl. rewrite andb_true_iff, !negb_true_iff, !Rltb_ge. lra. Qed.

Lemma scaled_neqb x y : neqb (al * x + s) (al * y + s) = neqb x y.
Proof.
  destruct (neqb x y) eqn:E.
  - apply same_R in E. subst. now apply same_R.
  - destruct (neqb (al * x + s) (al * y + s)) eqn:E'; [|reflexivity]. apply same_R in E'.
    assert (x = y) by nra. apply same_R in H. congruence.
Qed.

Lemma scaled_contents : forall l l' : list (node R (pose R * twist R)),
  map (fun n => (n_time n, n_coef n)) l' = map (fun tc => (al * fst tc + s, f (snd tc))) (map (fun n => (n_time n, n_coef n)) l) ->
  Forall2 similar l l'.
Proof.
  induction l as [|n l IH]; intros [|n' l']; simpl; try discriminate; [constructor|].
  intros E. assert (E1 : (n_time n', n_coef n') = (al * n_time n + s, f (n_coef n))) by congruence. apply pair_equal_spec in E1 as [E1 E2].
  constructor; [split; assumption|]. apply IH. congruence.
Qed.

Lemma rev_similar l l' : Forall2 similar l l' -> Forall2 similar (rev l) (rev l').
Proof. induction 1; simpl; [constructor|]. apply Forall2_app; auto. Qed.

Lemma scaled_bracket : forall l l', Forall2 similar l l' -> forall p p' t, similar p p' ->
  opt_similar (bracket_from p l t) (bracket_from p' l' (al * t + s)).
Proof.
  induction 1 as [|n n' l l' Hn F IH]; intros p p' t Hp; [exact I|]. cbn [bracket_from].
  rewrite (proj1 Hn), scaled_lt. destruct (tlt t (n_time n)); [split; assumption|]. now apply IH.
Qed.

Lemma scaled_times (m m' : mgr R (pose R * twist R)) : Forall2 similar (nodes m) (nodes m') -> nodes m <> [] ->
  min_time m' = al * min_time m + s /\ max_time m' = al * max_time m + s.
Proof.
  intros F Hn. pose proof (rev_similar _ _ F) as G. unfold min_time, max_time, last_node. split.
  - destruct F as [|? ? ? ? [X _]]; [contradiction|exact X].
  - destruct (nodes m) as [|n l] using rev_ind; [contradiction|]. rewrite rev_app_distr in *. cbn [rev app] in *.
    inversion G as [|? n' ? ? [X _] ? Q]. subst. exact X.
Qed.

Lemma scaled_get_at (m m' : mgr R (pose R * twist R)) t : Forall2 similar (nodes m) (nodes m') ->
  opt_similar (get_coefficients_at m t) (get_coefficients_at m' (al * t + s)).
Proof.
  intros F. unfold get_coefficients_at. unfold empty. destruct (nodes m) as [|n l] eqn:En; [inversion F; exact I|].
  assert (Hne : nodes m <> []) by congruence. rewrite <- En in F. rewrite (proj2 (scaled_times _ _ F Hne)), scaled_eq. rewrite En in F.
  destruct (nodes m') as [|n' l'] eqn:En'; [inversion F|].
  destruct (teq t (max_time m)).
  - unfold last_two. pose proof (rev_similar _ _ F) as F'.
    destruct F' as [|a a' r r' Ha' F']; [exact I|]. destruct F' as [|b b' q q' Hb F']; [exact I|]. split; assumption.
  - inversion F as [|? ? ? ? Hn F2]; subst. unfold bracket_upper. rewrite (proj1 Hn), scaled_lt.
    destruct (tlt t (n_time n)); [exact I|]. now apply scaled_bracket.
Qed.
End Scaled.

(** ** Segments *)

Section Remount.
Variables (K : kindr R) (r : quat R) (al s : R).
Hypothesis HK : exact_kindr K.
Hypothesis He : equivariant_log K.
Hypothesis Hr : unit_quat r.
Hypothesis Ha : 0 < al.

Local Notation rk := (remounted_knot r al).

Lemma r_cancel x : qmul r (qmul (qconj r) x) = x.
Proof. now rewrite <- qmul_assoc, unit_conj_r, qmul_one_l. Qed.

Lemma conj_pure (q : quat R) v : qmul (qmul q (qpure v)) (qconj q) = qpure (rotation_matrix q v).
Proof. destruct q as [w x y z], v as [a b d]. apply quat_ext; cbn; numR; ring. Qed.

Lemma exp_turned v : qexp (rotation_matrix (qconj r) v) = qmul (qconj r) (qmul (qexp v) r).
Proof. rewrite <- qexp_rotate by now apply unit_conj. now rewrite qconj_conj, qmul_assoc. Qed.
Lemma pure_turned v : qpure (rotation_matrix (qconj r) v) = qmul (qconj r) (qmul (qpure v) r).
Proof. rewrite <- conj_pure. now rewrite qconj_conj, qmul_assoc. Qed.

Lemma first_turned ta tb k :
  rotation_matrix (qconj (p_rot (fst (rk k)))) (vscale ((al * tb + s - (al * ta + s)) / 3) (t_ang (snd (rk k)))) =
  rotation_matrix (qconj r) (rotation_matrix (qconj (p_rot (fst k))) (vscale ((tb - ta) / 3) (t_ang (snd k)))).
Proof.
  cbn [remounted_knot fst snd remounted p_rot slower t_ang]. rewrite qconj_mul, rotation_mul. do 2 f_equal.
  destruct (t_ang (snd k)) as [x y z]. apply vec3_ext. intros []; cbn; numR; field; lra.
Qed.

Lemma middle_turned ta tb a b : middle_turn (al * ta + s) (al * tb + s) (rk a) (rk b) =
  qmul (qmul (qconj r) (middle_turn ta tb a b)) (qconj (qconj r)).
Proof.
  unfold middle_turn. cbv zeta. rewrite !first_turned.
  set (w1 := rotation_matrix (qconj (p_rot (fst a))) _). set (w3 := rotation_matrix (qconj (p_rot (fst b))) _).
  rewrite <- !rotation_vneg, !exp_turned. cbn [remounted_knot fst remounted p_rot]. rewrite qconj_conj, qconj_mul, !qmul_assoc, !r_cancel. reflexivity.
Qed.

Lemma rotation_remounted ta tb a b t : ta < tb -> unit_quat (p_rot (fst a)) -> unit_quat (p_rot (fst b)) ->
  se3_segment_rotation K (al * ta + s) (al * tb + s) (rk a) (rk b) (al * t + s) =
  qmul (se3_segment_rotation K ta tb a b t) r.
Proof.
  intros L Ua Ub. rewrite !(forward K HK). cbv zeta. rewrite !first_turned, middle_turned.
  rewrite He by (auto using unit_conj; now apply middle_unit).
  replace ((al * t + s - (al * ta + s)) / (al * tb + s - (al * ta + s))) with ((t - ta) / (tb - ta))
    by (assert (0 < al * (tb - ta)) by (apply Rmult_lt_0_compat; lra); field; split; lra).
  rewrite <- !rotation_scale, !exp_turned. cbn [remounted_knot fst remounted p_rot]. rewrite !qmul_assoc, !r_cancel. reflexivity.
Qed.

Lemma qdiff_middle ta tb a b t : ta < tb ->
  let third := (tb - ta) / 3 in
  let w1 := rotation_matrix (qconj (p_rot (fst a))) (vscale third (t_ang (snd a))) in
  let w3 := rotation_matrix (qconj (p_rot (fst b))) (vscale third (t_ang (snd b))) in
  let w2 := k_log K (middle_turn ta tb a b) in
  let x := (t - ta) / (tb - ta) in
  let e1 := qexp (vscale (x * x * x - 3 * (x * x) + 3 * x) w1) in
  let e2 := qexp (vscale (- 2 * (x * x * x) + 3 * (x * x)) w2) in
  let e3 := qexp (vscale (x * x * x) w3) in
  let q := p_rot (fst a) in
  se3_segment_qdiff K ta tb a b t = qscale
    (qadd (qadd (qmul (qmul (qmul (qmul q e1) (qpure (vscale (3 * ((1 - x) * (1 - x))) w1))) e2) e3)
                (qmul (qmul (qmul (qmul q e1) e2) (qpure (vscale (6 * x * (1 - x)) w2))) e3))
          (qmul (qmul (qmul (qmul q e1) e2) e3) (qpure (vscale (3 * (x * x)) w3)))) (/ (tb - ta)).
Proof.
  intros L. cbv zeta. rewrite (qdiff_form K HK ta tb a b L t). cbv zeta.
  assert (P : forall (y : R) (v : vec3 R), qpure (vscale (y / (tb - ta)) v) = qscale (qpure (vscale y v)) (/ (tb - ta))).
  { intros y v. destruct v. apply quat_ext; cbn; numR; field; lra. }
  rewrite !P, !qmul_scale_r, !qmul_scale_l. 
  rewrite !qscale_add. reflexivity.
Qed.

Lemma qdiff_remounted ta tb a b t : ta < tb -> unit_quat (p_rot (fst a)) -> unit_quat (p_rot (fst b)) ->
  se3_segment_qdiff K (al * ta + s) (al * tb + s) (rk a) (rk b) (al * t + s) =
  qscale (qmul (se3_segment_qdiff K ta tb a b t) r) (/ al).
Proof.
  intros L Ua Ub. assert (P : 0 < al * (tb - ta)) by (apply Rmult_lt_0_compat; lra).
  rewrite !qdiff_middle by lra. cbv zeta. rewrite !first_turned, middle_turned.
  rewrite He by (auto using unit_conj; now apply middle_unit).
  replace ((al * t + s - (al * ta + s)) / (al * tb + s - (al * ta + s))) with ((t - ta) / (tb - ta)) by (field; split; lra).
  rewrite <- !rotation_scale, !exp_turned, !pure_turned. cbn [remounted_knot fst remounted p_rot]. rewrite !qmul_assoc, !r_cancel.
  rewrite qmul_scale_l, !qmul_add_l, !qmul_assoc.
  set (X := qadd _ _). assert (Q : forall (u : quat R) (x y : R), qscale (qscale u x) y = qscale u (x * y)) by (intros [? ? ? ?] x y; apply quat_ext; cbn; numR; ring).
  rewrite Q. f_equal. field. split; lra.
Qed.

Variables c c' : se3_curve R.
Hypothesis Hc : consistent (h_mgr c).
Hypothesis Hu : unit_knots c.
Hypothesis Hne : contents (h_mgr c) <> [].
Hypothesis Hm : contents (h_mgr c') = map (fun tk => (al * fst tk + s, rk (snd tk))) (contents (h_mgr c)).

Lemma segment_slower ta tb (ka kb : pose R * twist R) t : ta < tb ->
  e3_segment_value (al * ta + s) (al * tb + s) (e3_knot (rk ka)) (e3_knot (rk kb)) (al * t + s) =
    e3_segment_value ta tb (e3_knot ka) (e3_knot kb) t /\
  e3_segment_velocity (al * ta + s) (al * tb + s) (e3_knot (rk ka)) (e3_knot (rk kb)) (al * t + s) =
    HermiteSpec.scaled (/ al) (e3_segment_velocity ta tb (e3_knot ka) (e3_knot kb) t) /\
  e3_segment_acceleration (al * ta + s) (al * tb + s) (e3_knot (rk ka)) (e3_knot (rk kb)) (al * t + s) =
    HermiteSpec.scaled (/ (al * al)) (e3_segment_acceleration ta tb (e3_knot ka) (e3_knot kb) t).
Proof.
  intros L. assert (P : 0 < al * (tb - ta)) by (apply Rmult_lt_0_compat; lra). assert (N : al * tb + s - (al * ta + s) <> 0) by lra.
  split; [|split]; apply vec3_ext; intros x; rewrite ?coord_scaled, ?coord_value, ?coord_velocity, ?coord_acceleration;
    unfold e3_knot, remounted_knot, remounted, slower; cbn [k_pos k_vel fst snd p_pos t_lin]; rewrite !coord_scaled;
    unfold hval, hvel, hacc; field; repeat split; lra.
Qed.

Lemma remounted_evaluate t :
  se3_evaluate K c' (al * t + s) = on_value (remounted r) (se3_evaluate K c t) /\
  se3_evaluate_derivative K c' (al * t + s) 1 = on_value (slower al) (se3_evaluate_derivative K c t 1) /\
  se3_evaluate_acceleration c' (al * t + s) = on_value (HermiteSpec.scaled (/ (al * al))) (se3_evaluate_acceleration c t).
Proof.
  pose proof (scaled_contents al s rk (nodes (h_mgr c)) (nodes (h_mgr c')) Hm) as F.
  pose proof (scaled_get_at al s rk Ha (h_mgr c) (h_mgr c') t F) as G.
  assert (Hn : nodes (h_mgr c) <> []) by (intros Z; apply Hne; unfold contents; now rewrite Z).
  destruct (scaled_times al s rk (h_mgr c) (h_mgr c') F Hn) as [E0 E1].
  unfold se3_evaluate_derivative, se3_evaluate_acceleration. cbn [N.eqb Pos.eqb]. unfold se3_evaluate. rewrite E0, E1, !(scaled_neqb al s Ha).
  destruct (get_coefficients_at (h_mgr c) t) as [[a b]|] eqn:Eg, (get_coefficients_at (h_mgr c') (al * t + s)) as [[a' b']|]; try contradiction.
  2:{ split; [|split]; try reflexivity; destruct (neqb (max_time (h_mgr c)) t && neqb (min_time (h_mgr c)) t)%bool; try reflexivity;
      unfold se3_first; destruct F as [|n n' l l' [_ En] _]; try reflexivity; rewrite En; reflexivity. }
  pose proof (bracket_lt c Hc _ _ _ Eg) as Hlt. destruct (get_at_some _ t a b Hc Eg) as (u & v & En & _).
  assert (Ua : unit_quat (p_rot (fst (n_coef a)))).
  { apply (Hu (n_time a) (n_coef a)). unfold contents. rewrite En. apply (in_map (fun n => (n_time n, n_coef n))). apply in_app_iff. simpl. auto. }
  assert (Ub : unit_quat (p_rot (fst (n_coef b)))).
  { apply (Hu (n_time b) (n_coef b)). unfold contents. rewrite En. apply (in_map (fun n => (n_time n, n_coef n))). apply in_app_iff. simpl. auto. }
  destruct G as [[Ta Ca] [Tb Cb]]. cbn [fst snd] in *. rewrite Ta, Tb, Ca, Cb.
  destruct (segment_slower (n_time a) (n_time b) (n_coef a) (n_coef b) t Hlt) as (S1 & S2 & S3).
  split; [|split].
  - destruct (neqb (max_time (h_mgr c)) t && neqb (min_time (h_mgr c)) t)%bool.
    + unfold se3_first. destruct F as [|n n' l l' [_ Em] _]; [reflexivity|]. rewrite Em. reflexivity.
    + cbn [on_value option_map]. unfold remounted at 1. cbn [p_pos p_rot]. rewrite S1, rotation_remounted by auto. reflexivity.
  - destruct (neqb (max_time (h_mgr c)) t && neqb (min_time (h_mgr c)) t)%bool.
    + unfold se3_first. destruct F as [|n n' l l' [_ Em] _]; [reflexivity|]. rewrite Em. reflexivity.
    + cbn [bind on_value option_map p_rot]. unfold slower at 1. cbn [t_lin t_ang]. rewrite S2, rotation_remounted, qdiff_remounted by auto.
      do 3 f_equal. set (q := se3_segment_rotation K (n_time a) (n_time b) (n_coef a) (n_coef b) t).
      set (d := se3_segment_qdiff K (n_time a) (n_time b) (n_coef a) (n_coef b) t).
      rewrite !qrotate_matrix, rotation_mul, qmul_scale_r, qconj_mul.
      assert (I : forall (z : quat R) (x : R), qimag (qscale z x) = vscale x (qimag z)) by (intros [? ? ? ?] x; apply vec3_ext; intros []; cbn; numR; ring).
      rewrite I, !rotation_scale.
      replace (qmul (qmul (qconj r) (qconj q)) (qmul d r)) with (qmul (qmul (qconj r) (qmul (qconj q) d)) (qconj (qconj r)))
        by (rewrite qconj_conj, !qmul_assoc; reflexivity).
      rewrite conjugation_imag, rotation_inv by exact Hr. generalize (rotation_matrix q (qimag (qmul (qconj q) d))).
      intros [x y z]. apply vec3_ext. intros []; cbn; numR; ring.
  - cbn [on_value option_map]. rewrite S3. reflexivity.
Qed.
End Remount.

(** ** C111 *)

Theorem C111_curve : forall K r al s (c c' : se3_curve R) t,
  exact_kindr K -> equivariant_log K -> unit_quat r -> 0 < al -> consistent (h_mgr c) -> unit_knots c -> (1 <= se3_size c)%nat ->
  remounted_curve r al s c c' ->
  se3_evaluate K c' (al * t + s) = on_value (remounted r) (se3_evaluate K c t) /\
  se3_evaluate_derivative K c' (al * t + s) 1 = on_value (slower al) (se3_evaluate_derivative K c t 1) /\
  se3_evaluate_acceleration c' (al * t + s) = on_value (HermiteSpec.scaled (/ (al * al))) (se3_evaluate_acceleration c t).
Proof.
  intros K r al s c c' t HK He Hr Ha Hc Hu Hn Hm. apply remounted_evaluate; auto.
  intros Z. unfold se3_size, size in Hn. unfold contents in Z. apply map_eq_nil in Z. rewrite Z in Hn. cbn in Hn. lia.
Qed.

Lemma slope_remounted K r al s ta tb a b : unit_quat r -> 0 < al -> ta < tb ->
  se3_slope K (al * ta + s) (al * tb + s) (remounted r a) (remounted r b) = slower al (se3_slope K ta tb a b).
Proof.
  intros Hr Ha L. assert (P : 0 < al * (tb - ta)) by (apply Rmult_lt_0_compat; lra).
  unfold se3_slope, slower. cbv zeta. cbn [t_lin t_ang]. f_equal.
  - destruct a as [[a1 a2 a3] qa], b as [[b1 b2 b3] qb]. apply vec3_ext. intros []; cbn; numR; field; repeat split; lra.
  - unfold box_minus. cbn [remounted p_rot]. rewrite qconj_mul, qmul_assoc, (r_cancel r Hr).
    generalize (k_log K (qmul (p_rot b) (qconj (p_rot a)))). intros [x y z]. apply vec3_ext. intros []; cbn; numR; field; repeat split; lra.
Qed.

Lemma increasing_scaled al s ts : 0 < al -> increasing_times ts -> increasing_times (map (fun t => al * t + s) ts).
Proof.
  intros Ha Hi i Li. rewrite map_length in Li. pose proof (Hi i Li) as H. unfold at_knot in *.
  assert (E : forall j, (j < length ts)%nat -> nth j (map (fun t => al * t + s) ts) 0 = al * nth j ts 0 + s).
  { intros j Lj. rewrite (nth_indep _ 0 (al * 0 + s)) by (rewrite map_length; exact Lj). apply (map_nth (fun t => al * t + s)). }
  rewrite !E by lia. nra.
Qed.

Theorem C111_fit : forall K r al s g g' (c c' : se3_curve R) ts vs d0 d1 out out',
  unit_quat r -> 0 < al -> length ts = length vs -> increasing_times ts ->
  (g + N.of_nat (length ts) < 2 ^ 64)%N -> (g' + N.of_nat (length ts) < 2 ^ 64)%N ->
  (forall v, In v vs -> unit_quat (p_rot v)) ->
  exists x x' gx gx' ks ks', se3_fit_with_derivatives K g c ts vs d0 d1 out = Ok (gx, x, ks) /\
    se3_fit_with_derivatives K g' c' (map (fun t => al * t + s) ts) (map (remounted r) vs) (slower al d0) (slower al d1) out' = Ok (gx', x', ks') /\
    consistent (h_mgr x) /\ unit_knots x /\ se3_size x = length ts /\ remounted_curve r al s x x'.
Proof.
  intros K r al s g g' c c' ts vs d0 d1 out out' Hr Ha Hl Hi Hg Hg' Hu.
  set (ts' := map (fun t => al * t + s) ts). set (vs' := map (remounted r) vs).
  assert (Ln : length ts' = length ts) by apply map_length. assert (Lv : length ts' = length vs') by (unfold ts', vs'; now rewrite !map_length).
  destruct (se3_fit_all K g c ts vs d0 d1 out Hl Hi Hg) as (x & ks & E & Hx & _ & Hcon & _ & _).
  destruct (se3_fit_all K g' c' ts' vs' (slower al d0) (slower al d1) out' Lv (increasing_scaled al s ts Ha Hi) ltac:(rewrite Ln; exact Hg'))
    as (x' & ks' & E' & Hx' & _ & Hcon' & _ & _).
  do 6 eexists. split; [exact E|]. split; [exact E'|]. split; [exact Hx|].
  split; [exact (fit_unit_knots K g c ts vs d0 d1 out _ _ _ Hl Hi Hg Hu E)|].
  assert (Lc : forall u w e0 e1, length u = length w -> length (combine u (fit_coefficients (se3_slope K) e0 e1 None (combine u w))) = length u).
  { intros u w e0 e1 H. rewrite combine_length, fit_coefficients_length, combine_length. lia. }
  split.
  { unfold se3_size, size. rewrite <- (Lc ts vs d0 d1 Hl), <- Hcon. unfold contents. now rewrite map_length. }
  unfold remounted_curve. rewrite Hcon, Hcon'. apply nth_error_same; [rewrite map_length, !Lc; auto|].
  rewrite Lc by exact Lv. rewrite Ln. intros i Li. set (n := length ts) in *.
  assert (Q : forall j, (j < n)%nat -> exists u v, nth_error ts j = Some u /\ nth_error vs j = Some v).
  { intros j Lj. destruct (nth_error ts j) as [u|] eqn:Es; [|apply nth_error_None in Es; unfold n in Lj; lia].
    destruct (nth_error vs j) as [v|] eqn:Ev; [|apply nth_error_None in Ev; unfold n in *; lia]. eauto. }
  assert (T' : forall j, nth_error ts' j = option_map (fun t => al * t + s) (nth_error ts j)) by (intros j; apply nth_error_map).
  assert (V' : forall j, nth_error vs' j = option_map (remounted r) (nth_error vs j)) by (intros j; apply nth_error_map).
  destruct (Q i Li) as (u & v & Es & Ev).
  rewrite (se3_fitted_nth K ts' vs' _ _ i (al * u + s) (remounted r v) Lv) by (rewrite ?T', ?V', ?Es, ?Ev; reflexivity).
  rewrite nth_error_map, (se3_fitted_nth K ts vs d0 d1 i u v Hl Es Ev). cbn [option_map fst snd]. unfold remounted_knot. cbn [fst snd]. do 3 f_equal.
  destruct i as [|i]; [reflexivity|]. unfold se3_knot_twist. rewrite !T', !V'.
  destruct (Q i ltac:(lia)) as (u0 & v0 & Es0 & Ev0). rewrite Es0, Ev0. cbn [option_map].
  destruct (nth_error ts (S (S i))) as [u2|] eqn:Es2; cbn [option_map]; [|reflexivity].
  destruct (nth_error vs (S (S i))) as [v2|] eqn:Ev2; cbn [option_map]; [|reflexivity].
  assert (L2 : (S (S i) < length ts)%nat) by (apply nth_error_Some; congruence).
  apply slope_remounted; auto. pose proof (Hi i ltac:(lia)). pose proof (Hi (S i) ltac:(lia)).
  pose proof (at_knot_nth ts i u0 Es0). pose proof (at_knot_nth ts (S (S i)) u2 Es2). lra.
Qed.

Lemma vnorm_half (a b : vec3 R) n : vnorm a = n -> vnorm b = n -> a <> b ->
  vnorm (HermiteE3.vadd (vscale (/ 2) a) (vscale (/ 2) b)) < n.
Proof.
  intros A B N. assert (Pn : 0 <= n) by (rewrite <- A; apply vnorm_pos).
  unfold vnorm in *. rewrite <- (sqrt_square n Pn). apply sqrt_lt_1_alt.
  assert (QA : HermiteE3.vx a * HermiteE3.vx a + vy a * vy a + vz a * vz a = n * n).
  { rewrite <- A, sqrt_sqrt; [reflexivity|]. pose proof (Rle_0_sqr (HermiteE3.vx a)). pose proof (Rle_0_sqr (vy a)). pose proof (Rle_0_sqr (vz a)). unfold Rsqr in *. lra. }
  assert (QB : HermiteE3.vx b * HermiteE3.vx b + vy b * vy b + vz b * vz b = n * n).
  { rewrite <- B, sqrt_sqrt; [reflexivity|]. pose proof (Rle_0_sqr (HermiteE3.vx b)). pose proof (Rle_0_sqr (vy b)). pose proof (Rle_0_sqr (vz b)). unfold Rsqr in *. lra. }
  destruct a as [a1 a2 a3], b as [b1 b2 b3]. cbn in *. numR.
  set (d1 := a1 - b1). set (d2 := a2 - b2). set (d3 := a3 - b3).
  assert (D : 0 < d1 * d1 + d2 * d2 + d3 * d3).
  { pose proof (Rle_0_sqr d1). pose proof (Rle_0_sqr d2). pose proof (Rle_0_sqr d3). unfold Rsqr in *.
    destruct (Rle_lt_or_eq_dec 0 (d1 * d1 + d2 * d2 + d3 * d3) ltac:(lra)) as [?|Z]; [assumption|]. exfalso. apply N.
    assert (d1 * d1 = 0) by lra. assert (d2 * d2 = 0) by lra. assert (d3 * d3 = 0) by lra.
    apply Rmult_integral in H2. apply Rmult_integral in H3. apply Rmult_integral in H4. unfold d1, d2, d3 in *. f_equal; lra. }
  split.
  - pose proof (Rle_0_sqr (/ 2 * a1 + / 2 * b1)). pose proof (Rle_0_sqr (/ 2 * a2 + / 2 * b2)). pose proof (Rle_0_sqr (/ 2 * a3 + / 2 * b3)).
    unfold Rsqr in *. lra.
  - unfold d1, d2, d3 in D. lra.
Qed.

(** A body that turns on the spot carries a point beside its origin around a circle; the curve fitted to the poses of that point cuts
    the corner, whatever the orientations. *)
Theorem C111_lever_refuted : forall K l qa qb, exact_kindr K -> unit_quat qa -> unit_quat qb -> rotation_matrix qa l <> rotation_matrix qb l ->
  let ts := [0; 1] in let vs := [Pose vzero qa; Pose vzero qb] in
  exists x x' g g' ks ks' p p', se3_fit K 0 se3_new ts vs [] = Ok (g, x, ks) /\
    se3_fit K 0 se3_new ts (map (carried l) vs) [] = Ok (g', x', ks') /\
    se3_evaluate K x (/ 2) = Ok (Some p) /\ se3_evaluate K x' (/ 2) = Ok (Some p') /\
    vnorm (p_pos (carried l p)) = vnorm l /\ vnorm (p_pos p') < vnorm l.
Proof.
  intros K l qa qb HK Ua Ub N ts vs.
  assert (Hi : increasing_times ts) by (intros [|i] Li; unfold at_knot, ts in *; cbn in *; [lra|lia]).
  assert (Hu : forall v, In v vs -> unit_quat (p_rot v)) by (intros v [<-|[<-|[]]]; assumption).
  destruct (se3_fit_all K 0 se3_new ts vs zero_twist zero_twist [] eq_refl Hi eq_refl) as (x & ks & E & Hx & _ & Hcon & _).
  destruct (se3_fit_all K 0 se3_new ts (map (carried l) vs) zero_twist zero_twist [] eq_refl Hi eq_refl) as (x' & ks' & E' & Hx' & _ & Hcon' & _).
  pose proof (fit_unit_knots K 0 se3_new ts vs zero_twist zero_twist [] _ _ _ eq_refl Hi eq_refl Hu E) as Hk.
  set (a := (Pose vzero qa, zero_twist) : pose R * twist R). set (b := (Pose vzero qb, zero_twist) : pose R * twist R).
  set (a' := (carried l (Pose vzero qa), zero_twist) : pose R * twist R). set (b' := (carried l (Pose vzero qb), zero_twist) : pose R * twist R).
  assert (Ec : contents (h_mgr x) = [] ++ (0, a) :: (1, b) :: []) by (rewrite Hcon; reflexivity).
  assert (Ec' : contents (h_mgr x') = [] ++ (0, a') :: (1, b') :: []) by (rewrite Hcon'; reflexivity).
  pose proof (translation_split _ _ _ _ _ _ _ Ec) as T. pose proof (translation_split _ _ _ _ _ _ _ Ec') as T'.
  pose proof (evaluate_segment (translation x) _ _ _ _ _ _ (/ 2) (map_consistent _ _ Hx) T ltac:(lra)) as P.
  pose proof (evaluate_segment (translation x') _ _ _ _ _ _ (/ 2) (map_consistent _ _ Hx') T' ltac:(lra)) as P'.
  pose proof (piece_unit K x HK Hx Hk _ _ _ _ _ _ (/ 2) Ec ltac:(lra)) as U.
  rewrite (translation_evaluate K) in P, P'. unfold rot_at in U.
  destruct (se3_evaluate K x (/ 2)) as [[p|]| | |] eqn:Ep; try discriminate. destruct (se3_evaluate K x' (/ 2)) as [[p'|]| | |] eqn:Ep'; try discriminate.
  cbn [on_value] in P, P'.
  assert (E1 : p_pos p = e3_segment_value 0 1 (e3_knot a) (e3_knot b) (/ 2)) by congruence.
  assert (E2 : p_pos p' = e3_segment_value 0 1 (e3_knot a') (e3_knot b') (/ 2)) by congruence.
  exists x, x'. do 4 eexists. exists p, p'. split; [exact E|]. split; [exact E'|]. split; [exact Ep|]. split; [exact Ep'|]. split.
  - assert (Z : p_pos p = vzero).
    { rewrite E1. apply vec3_ext. intros []; rewrite coord_value; unfold hval, a, b, e3_knot; cbn; numR; field. }
    unfold carried. cbn [p_pos]. rewrite Z.
    replace (HermiteE3.vadd vzero (rotation_matrix (p_rot p) l)) with (rotation_matrix (p_rot p) l)
      by (generalize (rotation_matrix (p_rot p) l); intros [? ? ?]; apply vec3_ext; intros []; cbn; numR; ring).
    now apply rotation_norm.
  - rewrite E2.
    replace (e3_segment_value 0 1 (e3_knot a') (e3_knot b') (/ 2))
      with (HermiteE3.vadd (vscale (/ 2) (rotation_matrix qa l)) (vscale (/ 2) (rotation_matrix qb l))).
    + apply vnorm_half; auto using rotation_norm.
    + apply vec3_ext. intros y. rewrite coord_value. unfold hval, a', b', e3_knot, carried. cbn [fst snd p_pos p_rot k_pos k_vel zero_twist t_lin].
      destruct (rotation_matrix qa l) as [x1 y1 z1], (rotation_matrix qb l) as [x2 y2 z2]. destruct y; cbn; numR; field.
Qed.

(** ** Instances of the hypotheses *)

(** The pose data of the other examples, a quarter turn about z between body and frame, and milliseconds since an epoch instead of seconds. *)
Example C111_example : exists (x x' : se3_curve R) (vs : list (pose R)), exact_kindr std_kindr /\ equivariant_log std_kindr /\
  unit_quat (Quat (3 / 5) 0 0 (4 / 5)) /\ 0 < 1000 /\ length ts4 = length vs /\ increasing_times ts4 /\
  (0 + N.of_nat (length ts4) < 2 ^ 64)%N /\ (forall v, In v vs -> unit_quat (p_rot v)) /\
  consistent (h_mgr x) /\ unit_knots x /\ (1 <= se3_size x)%nat /\ remounted_curve (Quat (3 / 5) 0 0 (4 / 5)) 1000 7 x x'.
Proof.
  set (vs := [Pose vzero qone; Pose vzero (Quat 0 1 0 0); Pose vzero (Quat (3 / 5) 0 0 (4 / 5)); Pose vzero (Quat 0 1 0 0)] : list (pose R)).
  assert (Hu : forall v, In v vs -> unit_quat (p_rot v)).
  { intros v [<-|[<-|[<-|[<-|[]]]]]; unfold unit_quat; cbn; numR; lra. }
  assert (Ur : unit_quat (Quat (3 / 5) 0 0 (4 / 5))) by (unfold unit_quat; cbn; numR; lra).
  destruct (C111_fit std_kindr (Quat (3 / 5) 0 0 (4 / 5)) 1000 7 0 0 se3_new se3_new ts4 vs zero_twist zero_twist [] [] Ur ltac:(lra) eq_refl
    ts4_increasing eq_refl eq_refl Hu) as (x & x' & gx & gx' & ks & ks' & _ & _ & Hx & Hk & Hn & Hm).
  exists x, x', vs. split; [exact std_log_exact|]. split; [exact std_log_equivariant|]. split; [exact Ur|]. split; [lra|]. split; [reflexivity|].
  split; [exact ts4_increasing|]. split; [reflexivity|]. split; [exact Hu|]. split; [exact Hx|]. split; [exact Hk|]. split; [rewrite Hn; cbn; lia|]. exact Hm.
Qed.

(** C111_lever_refuted: half a turn. *)
Example C111_lever_example : exact_kindr std_kindr /\ unit_quat (Quat 1 0 0 0) /\ unit_quat (Quat 0 0 0 1) /\
  rotation_matrix (Quat 1 0 0 0) (V3 1 0 0) <> rotation_matrix (Quat 0 0 0 1) (V3 1 0 0).
Proof.
  split; [exact std_log_exact|]. split; [unfold unit_quat; cbn; numR; lra|]. split; [unfold unit_quat; cbn; numR; lra|].
  intros E. apply (f_equal HermiteE3.vx) in E. revert E. cbn. numR. lra.
Qed.
