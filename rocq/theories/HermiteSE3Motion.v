(** * Fitting SE3 curves: knots, change of frame, uniform motion *)

From Coquelicot Require Import Coquelicot.
From Coq Require Import List Reals Lra Lia Bool Arith NArith ZArith Permutation Sorted.
From Verif Require Import Base TimeOrder TimeInst KeyGen Manager ManagerSpec ManagerProofs ManagerProofs2
  ManagerProofs3 Num Sampling SamplingSpec SamplingProofs SplineSpec SetDataTraj HermiteE3 HermiteSpec HermiteE3Proofs
  Quat QuatSpec QuatProofs QuatLog HermiteSE3 HermiteSE3Spec HermiteSE3Proofs HermiteSE3Curve.
Import ListNotations.
Local Open Scope R_scope.

(** ** The coefficients of a fit by index *)

Lemma fit_nth {T V D} (slope : T -> T -> V -> V -> D) d0 d1 : forall tvs prev i t v,
  nth_error tvs i = Some (t, v) ->
  nth_error (fit_coefficients slope d0 d1 prev tvs) i =
    Some (v, match (match i with O => prev | S j => nth_error tvs j end), nth_error tvs (S i) with
             | None, _ => d0
             | Some _, None => d1
             | Some (tp, vp), Some (tn, vn) => slope tp tn vp vn
             end).
Proof.
  induction tvs as [|[t0 v0] r IH]; intros prev i t v E; [destruct i; discriminate|].
  destruct i as [|i].
  - injection E as -> ->. cbn [fit_coefficients nth_error]. destruct prev as [[tp vp]|]; [|reflexivity].
    destruct r as [|[tn vn] r]; reflexivity.
  - change (nth_error r i = Some (t, v)) in E. cbn [fit_coefficients].
    change (nth_error (fit_coefficients slope d0 d1 (Some (t0, v0)) r) i =
      Some (v, match nth_error ((t0, v0) :: r) i, nth_error r (S i) with
               | None, _ => d0 | Some _, None => d1 | Some (tp, vp), Some (tn, vn) => slope tp tn vp vn end)).
    rewrite (IH _ _ _ _ E). destruct i; reflexivity.
Qed.

Lemma combine_nth_error {A B} : forall (l : list A) (l' : list B) i a b,
  nth_error l i = Some a -> nth_error l' i = Some b -> nth_error (combine l l') i = Some (a, b).
Proof.
  induction l as [|x l IH]; intros [|y l'] [|i] a b; simpl; try discriminate.
  - now intros [= ->] [= ->].
  - apply IH.
Qed.

Lemma combine_in_nth {A B} (l : list A) (l' : list B) a b : In (a, b) (combine l l') ->
  exists i, nth_error l i = Some a /\ nth_error l' i = Some b.
Proof.
  revert l'. induction l as [|x l IH]; intros [|y l']; simpl; try tauto.
  intros [[= -> ->]|Hi]; [exists 0%nat; auto|]. destruct (IH _ Hi) as (i & E1 & E2). exists (S i). auto.
Qed.

Lemma nth_error_combine_none {A B} (l : list A) (l' : list B) i : length l = length l' ->
  nth_error (combine l l') i = None <-> nth_error l i = None.
Proof. intros E. rewrite !nth_error_None, combine_length. lia. Qed.

(** The fit of an SE3 curve, all facts in one place. *)
Section Fit.
Variable K : kindr R.

Definition se3_knot_twist (ts : list R) (vs : list (pose R)) (d0 d1 : twist R) (i : nat) : twist R :=
  match i with
  | O => d0
  | S j => match nth_error ts j, nth_error vs j, nth_error ts (S i), nth_error vs (S i) with
           | Some tp, Some vp, Some tn, Some vn => se3_slope K tp tn vp vn
           | _, _, _, _ => d1
           end
  end.

Lemma increasing_times_combine (ts : list R) {V} (vs : list V) : length ts = length vs -> increasing_times ts ->
  increasing (combine ts vs).
Proof.
  revert vs. induction ts as [|t ts IH]; intros [|v vs] Hl Hi; simpl in *; try discriminate; auto.
  split.
  - destruct ts as [|t1 ts], vs as [|v1 vs]; simpl; auto.
    specialize (Hi 0%nat ltac:(simpl; lia)). unfold at_knot in Hi. simpl in Hi. now apply tlt_R.
  - apply IH; [lia|]. intros i L. apply (Hi (S i)). simpl. lia.
Qed.

Lemma se3_fit_all g (c : se3_curve R) ts vs d0 d1 out :
  length ts = length vs -> increasing_times ts -> (g + N.of_nat (length ts) < 2 ^ 64)%N ->
  exists c' ks, se3_fit_with_derivatives K g c ts vs d0 d1 out = Ok ((g + N.of_nat (length ts))%N, c', out ++ ks) /\
    consistent (h_mgr c') /\ h_pol c' = h_pol c /\
    contents (h_mgr c') = combine ts (fit_coefficients (se3_slope K) d0 d1 None (combine ts vs)) /\
    (forall i t v, nth_error ts i = Some t -> nth_error vs i = Some v ->
       In (t, (v, se3_knot_twist ts vs d0 d1 i)) (contents (h_mgr c'))) /\
    (forall t k, In (t, k) (contents (h_mgr c')) -> exists i, nth_error ts i = Some t /\ nth_error vs i = Some (fst k) /\
       snd k = se3_knot_twist ts vs d0 d1 i).
Proof.
  intros Hl Hi Hg.
  destruct (hermite_fit_spec (se3_slope K) g c ts vs d0 d1 out Hl (increasing_times_combine ts vs Hl Hi) Hg)
    as (m' & ks & E & [Hs _] & Hcon).
  exists (Hermite m' (h_pol c)), ks. split; [exact E|]. split; [exact Hs|]. split; [reflexivity|].
  split; [exact Hcon|]. cbn [h_mgr].
  assert (X : forall i t v, nth_error ts i = Some t -> nth_error vs i = Some v ->
    nth_error (fit_coefficients (se3_slope K) d0 d1 None (combine ts vs)) i = Some (v, se3_knot_twist ts vs d0 d1 i)).
  { intros i t v Et Ev. rewrite (fit_nth _ _ _ _ None i t v (combine_nth_error _ _ _ _ _ Et Ev)). do 2 f_equal.
    destruct i as [|j]; [reflexivity|]. unfold se3_knot_twist.
    assert (L : (S j < length ts)%nat) by (apply nth_error_Some; congruence).
    destruct (nth_error ts j) as [tp|] eqn:Etp; [|apply nth_error_None in Etp; lia].
    destruct (nth_error vs j) as [vp|] eqn:Evp; [|apply nth_error_None in Evp; lia].
    rewrite (combine_nth_error _ _ _ _ _ Etp Evp).
    destruct (nth_error ts (S (S j))) as [tn|] eqn:Etn.
    - destruct (nth_error vs (S (S j))) as [vn|] eqn:Evn.
      + now rewrite (combine_nth_error _ _ _ _ _ Etn Evn).
      + apply nth_error_None in Evn. assert (S (S j) < length ts)%nat by (apply nth_error_Some; congruence). lia.
    - now rewrite (proj2 (nth_error_combine_none ts vs _ Hl) Etn). }
  split.
  - intros i t v Et Ev. rewrite Hcon. apply nth_error_In with (n := i).
    apply combine_nth_error; [exact Et|]. eapply X; eassumption.
  - intros t k Hk. rewrite Hcon in Hk. apply combine_in_nth in Hk as (i & Et & Ek). exists i.
    assert (L : (i < length ts)%nat) by (apply nth_error_Some; congruence).
    destruct (nth_error vs i) as [v|] eqn:Ev; [|apply nth_error_None in Ev; lia].
    rewrite (X _ _ _ Et Ev) in Ek. injection Ek as <-. auto.
Qed.
End Fit.

Lemma fit_unit_knots K g (c : se3_curve R) ts vs d0 d1 out g' c' out' :
  length ts = length vs -> increasing_times ts -> (g + N.of_nat (length ts) < 2 ^ 64)%N ->
  (forall v, In v vs -> unit_quat (p_rot v)) ->
  se3_fit_with_derivatives K g c ts vs d0 d1 out = Ok (g', c', out') -> unit_knots c'.
Proof.
  intros Hl Hi Hg Hu E. destruct (se3_fit_all K g c ts vs d0 d1 out Hl Hi Hg) as (c2 & ks & E2 & _ & _ & _ & _ & Hin).
  rewrite E2 in E. injection E as <- <- <-. intros t k Hk. destruct (Hin t k Hk) as (i & _ & Ev & _).
  apply Hu. now apply nth_error_In in Ev.
Qed.

(** ** Fits commute with a change of frame *)

Section Frame.
Variables (K : kindr R) (p : quat R) (tr : vec3 R).
Hypothesis Hp : unit_quat p.
Hypothesis Heq : equivariant_log K.

Lemma slope_move ta tb a b : unit_quat (p_rot a) -> unit_quat (p_rot b) ->
  se3_slope K ta tb (move_pose p tr a) (move_pose p tr b) = move_twist p (se3_slope K ta tb a b).
Proof.
  intros Ha Hb. unfold se3_slope, move_twist, box_minus. cbv zeta. cbn [t_lin t_ang move_pose p_pos p_rot]. f_equal.
  - destruct p as [w x y z], tr as [r1 r2 r3], a as [[a1 a2 a3] qa], b as [[b1 b2 b3] qb].
    apply vec3_ext. intros []; cbn; numR; unfold Rdiv; ring.
  - replace (qmul (qmul p (p_rot b)) (qconj (qmul p (p_rot a)))) with
      (qmul (qmul p (qmul (p_rot b) (qconj (p_rot a)))) (qconj p)) by (rewrite qconj_mul, !qmul_assoc; reflexivity).
    rewrite Heq by (auto using unit_mul, unit_conj).
    generalize (k_log K (qmul (p_rot b) (qconj (p_rot a)))). intros v.
    destruct p as [w x y z], v as [v1 v2 v3]. apply vec3_ext. intros []; cbn; numR; ring.
Qed.

Lemma fit_move d0 d1 : forall tvs prev,
  (forall t v, In (t, v) tvs -> unit_quat (p_rot v)) ->
  (forall t v, prev = Some (t, v) -> unit_quat (p_rot v)) ->
  fit_coefficients (se3_slope K) (move_twist p d0) (move_twist p d1)
    (option_map (fun tv => (fst tv, move_pose p tr (snd tv))) prev)
    (map (fun tv => (fst tv, move_pose p tr (snd tv))) tvs) =
  map (move_knot p tr) (fit_coefficients (se3_slope K) d0 d1 prev tvs).
Proof.
  induction tvs as [|[t v] r IH]; intros prev Hr Hv; [reflexivity|].
  cbn [map fit_coefficients fst snd]. f_equal.
  - unfold move_knot. cbn [fst snd]. f_equal. destruct prev as [[tp vp]|]; [|reflexivity]. cbn [option_map fst snd].
    destruct r as [|[tn vn] r]; [reflexivity|]. cbn [map fst snd]. apply slope_move.
    + apply (Hv tp vp eq_refl).
    + apply (Hr tn vn). simpl. auto.
  - apply (IH (Some (t, v))).
    + intros t' v' Hi. apply (Hr t' v'). simpl. auto.
    + intros t' v' [= -> ->]. apply (Hr t' v'). simpl. auto.
Qed.

Lemma combine_move (ts : list R) : forall vs, combine ts (map (move_pose p tr) vs) =
  map (fun tv => (fst tv, move_pose p tr (snd tv))) (combine ts vs).
Proof. induction ts as [|t ts IH]; intros [|v vs]; simpl; auto. now rewrite IH. Qed.

Lemma combine_map_r {A B C} (f : B -> C) (ts : list A) : forall vs, combine ts (map f vs) =
  map (fun tv => (fst tv, f (snd tv))) (combine ts vs).
Proof. induction ts as [|t ts IH]; intros [|v vs]; simpl; auto. now rewrite IH. Qed.

Lemma fit_contents_move ts vs d0 d1 : (forall v, In v vs -> unit_quat (p_rot v)) ->
  combine ts (fit_coefficients (se3_slope K) (move_twist p d0) (move_twist p d1) None
     (combine ts (map (move_pose p tr) vs))) =
  map (fun tk => (fst tk, move_knot p tr (snd tk)))
    (combine ts (fit_coefficients (se3_slope K) d0 d1 None (combine ts vs))).
Proof.
  intros Hu. rewrite combine_move, <- (combine_map_r (move_knot p tr)). f_equal.
  pose proof (fit_move d0 d1 (combine ts vs) None) as X. cbn [option_map] in X. apply X; [|discriminate].
  intros t v Hi. apply Hu. now apply in_combine_r in Hi.
Qed.
End Frame.

(** ** Uniform motion *)

Lemma qexp_rotate (q : quat R) v : unit_quat q ->
  qmul (qmul q (qexp v)) (qconj q) = qexp (rotation_matrix q v).
Proof.
  intros Hq.
  assert (N : vnorm (rotation_matrix q v) = vnorm v) by now apply rotation_norm.
  unfold qexp. rewrite N. set (n := vnorm v). set (s := if Req_EM_T n 0 then / 2 else sin (n / 2) / n).
  set (co := cos (n / 2)). clearbody s co. clear N n.
  unfold unit_quat in Hq. destruct q as [w x y z], v as [a b d]. cbn [qw qx qy qz] in Hq.
  apply quat_ext; cbn; numR.
  - transitivity (co * (w * w + x * x + y * y + z * z)); [ring|rewrite Hq; ring].
  - ring.
  - ring.
  - ring.
Qed.

Lemma qexp_commute v s r : qmul (qexp (vscale s v)) (qexp (vscale r v)) = qmul (qexp (vscale r v)) (qexp (vscale s v)).
Proof. rewrite !qexp_add. do 2 f_equal. ring. Qed.

Section Uniform.
Variables (K : kindr R) (q0 : quat R) (w : vec3 R).
Hypothesis HK : exact_kindr K.
Hypothesis HP : principal_log K.
Hypothesis H0 : unit_quat q0.

Local Notation turning := (turning q0 w).

Lemma turning_unit t : unit_quat (turning t).
Proof. apply unit_mul; auto. apply qexp_unit. Qed.

Lemma qexp_fixes s v : rotation_matrix (qexp (vscale s v)) v = v.
Proof.
  destruct (qexp_line v) as (h & u & Ev & U & _ & E). rewrite E. rewrite Ev. clear E Ev.
  pose proof (sin2_cos2 (s * h)) as SC. unfold Rsqr in SC.
  set (S := sin (s * h)) in *. set (C := cos (s * h)) in *. destruct u as [a b d]. cbn [vx vy vz] in U.
  apply vec3_ext. intros []; cbn; numR.
  - transitivity (2 * h * a * (S * S * (a * a + b * b + d * d) + C * C)); [ring|rewrite U, Rmult_1_r, SC; ring].
  - transitivity (2 * h * b * (S * S * (a * a + b * b + d * d) + C * C)); [ring|rewrite U, Rmult_1_r, SC; ring].
  - transitivity (2 * h * d * (S * S * (a * a + b * b + d * d) + C * C)); [ring|rewrite U, Rmult_1_r, SC; ring].
Qed.

Let u := rotation_matrix (qconj q0) w.

Lemma turning_local s t : rotation_matrix (qconj (turning t)) (vscale s w) = vscale s u.
Proof.
  unfold turning. rewrite qconj_mul, rotation_mul, qexp_conj, vneg_scale, vscale_vscale, !rotation_scale, qexp_fixes.
  reflexivity.
Qed.

Lemma turning_diff s t : qmul (qconj (turning s)) (turning t) = qexp (vscale (t - s) u).
Proof.
  unfold turning. rewrite qconj_mul, qexp_conj, vneg_scale, vscale_vscale, !qmul_assoc.
  rewrite <- (qmul_assoc (qexp _) (qexp _) q0), qexp_add, <- qmul_assoc.
  replace (-1 * s + t) with (t - s) by ring. unfold u. rewrite <- rotation_scale.
  rewrite <- (qexp_rotate (qconj q0) (vscale (t - s) w)) by now apply unit_conj.
  now rewrite qconj_conj.
Qed.

Lemma turning_box s t : vnorm (vscale (t - s) w) < PI ->
  box_minus K (turning t) (turning s) = vscale (t - s) w.
Proof.
  intros Hn. unfold box_minus, turning.
  rewrite qconj_mul, !qmul_assoc, <- (qmul_assoc q0), unit_conj_r, qmul_one_l by auto.
  rewrite qexp_conj, vneg_scale, vscale_vscale, qexp_add.
  replace (t + -1 * s) with (t - s) by ring. now apply HP.
Qed.

Lemma unorm s : vnorm (vscale s u) = vnorm (vscale s w).
Proof. unfold u. rewrite <- rotation_scale. apply rotation_norm. now apply unit_conj. Qed.

Section Seg.
Variables (ta tb : R) (a b : pose R * twist R).
Hypothesis Hlt : ta < tb.
Hypothesis Ea : qA a = turning ta.
Hypothesis Eb : qA b = turning tb.
Hypothesis Wa : wA a = w.
Hypothesis Wb : wA b = w.
Hypothesis Hn : vnorm (vscale (tb - ta) w) < PI.

Lemma uniform_rotation t : se3_segment_rotation K ta tb a b t = turning t.
Proof.
  rewrite (rot_form K HK). cbv zeta. rewrite Ea, Eb, Wa, Wb, !turning_local.
  set (third := (tb - ta) / 3). rewrite vneg_scale, !vscale_vscale.
  rewrite (qmul_assoc (qexp _) (qconj _) (turning tb)), turning_diff, !qexp_add.
  replace (-1 * third + (tb - ta) + -1 * third) with third by (unfold third; field).
  rewrite HP.
  2: { rewrite unorm. rewrite vnorm_scale in *. unfold third. rewrite Rabs_pos_eq in * by lra.
       pose proof (vnorm_pos w). nra. }
  rewrite !vscale_vscale, !qmul_assoc, !qexp_add.
  match goal with |- qmul _ (qexp (vscale ?x u)) = _ => replace x with (t - ta) by (unfold third; field; lra) end.
  rewrite <- turning_diff, <- qmul_assoc, unit_conj_r, qmul_one_l by apply turning_unit. reflexivity.
Qed.

Lemma turning_derivative t : quat_derivative turning t (qscale (qmul (qpure w) (turning t)) (/ 2)).
Proof.
  pose proof (quat_derivative_mul _ _ t _ _ (qexp_derivative w (fun s => s) t 1 (derivable_pt_lim_id t))
    (quat_derivative_const q0 t)) as D.
  eapply quat_derivative_ext; [|exact D]. rewrite quat_zero_r, quat_add_zero_r, vscale_1, qmul_scale_l. f_equal.
  unfold turning. rewrite <- !qmul_assoc. f_equal.
  replace (qpure w) with (qpure (rotation_matrix (qexp (vscale t w)) w)) at 2 by now rewrite qexp_fixes.
  rewrite <- qrotate_matrix, pure_rotate, !qmul_assoc.
  rewrite (unit_conj_l (qexp (vscale t w))), qmul_one_r by apply qexp_unit. reflexivity.
Qed.

Lemma uniform_omega t : omega K ta tb a b t = w.
Proof.
  assert (Ua : unit_quat (qA a)) by (rewrite Ea; apply turning_unit).
  pose proof (rot_motion K HK ta tb a b Hlt t Ua) as D1.
  pose proof (quat_derivative_eq _ (se3_segment_rotation K ta tb a b) t _ (fun s => eq_sym (uniform_rotation s))
    (turning_derivative t)) as D2.
  rewrite uniform_rotation in D1.
  assert (E : qscale (qmul (qpure (omega K ta tb a b t)) (turning t)) (/ 2) = qscale (qmul (qpure w) (turning t)) (/ 2)).
  { destruct D1 as (A1 & A2 & A3 & A4), D2 as (B1 & B2 & B3 & B4).
    apply quat_ext; eapply uniqueness_limite; eassumption. }
  assert (E2 : qmul (qpure (omega K ta tb a b t)) (turning t) = qmul (qpure w) (turning t)).
  { revert E. generalize (qmul (qpure (omega K ta tb a b t)) (turning t)) (qmul (qpure w) (turning t)).
    intros [x1 x2 x3 x4] [y1 y2 y3 y4] E. injection E as E1 E2 E3 E4. cbn in *. f_equal; lra. }
  assert (E3 : qpure (omega K ta tb a b t) = qpure w).
  { rewrite <- (qmul_one_r (qpure (omega _ _ _ _ _ _))), <- (qmul_one_r (qpure w)).
    rewrite <- (unit_conj_r (turning t)) by apply turning_unit. rewrite <- !qmul_assoc. now rewrite E2. }
  revert E3. generalize (omega K ta tb a b t). intros [o1 o2 o3] E3. destruct w as [w1 w2 w3].
  injection E3 as -> -> ->. reflexivity.
Qed.
End Seg.
End Uniform.

Lemma uniform_position ta tb (x v : vec3 R) t : ta < tb ->
  e3_segment_value ta tb (Knot (vadd x (vscale ta v)) v) (Knot (vadd x (vscale tb v)) v) t = vadd x (vscale t v) /\
  e3_segment_velocity ta tb (Knot (vadd x (vscale ta v)) v) (Knot (vadd x (vscale tb v)) v) t = v.
Proof.
  intros Hl. destruct x as [x1 x2 x3], v as [v1 v2 v3].
  split; apply vec3_ext; intros []; cbn; numR; field; lra.
Qed.
