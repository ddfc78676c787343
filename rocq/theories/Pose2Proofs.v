(** * Derivatives along curves of poses *)

From Coquelicot Require Import Coquelicot.
From Coq Require Import List Reals Lra Lia.
From Verif Require Import Base Discrete DiscreteSpec Se2 Pose2Expr.
Import ListNotations.
Local Open Scope R_scope.

(** ** Specification: a pose that moves, a vector that varies *)

(** [P] passes at time 0 with the velocity [w] in body coordinates. *)
Record moves (P : R -> pose2) (w : twist2) : Prop := {
  moves_c : is_derive (fun e => rc (p2_rot (P e))) 0 (- rs (p2_rot (P 0)) * w2_w w);
  moves_s : is_derive (fun e => rs (p2_rot (P e))) 0 (rc (p2_rot (P 0)) * w2_w w);
  moves_x : is_derive (fun e => p2_x (P e)) 0 (turn_x (p2_rot (P 0)) (w2_x w) (w2_y w));
  moves_y : is_derive (fun e => p2_y (P e)) 0 (turn_y (p2_rot (P 0)) (w2_x w) (w2_y w))
}.

Record varies (v : R -> twist2) (d : twist2) : Prop := {
  varies_x : is_derive (fun e => w2_x (v e)) 0 (w2_x d);
  varies_y : is_derive (fun e => w2_y (v e)) 0 (w2_y d);
  varies_w : is_derive (fun e => w2_w (v e)) 0 (w2_w d)
}.

(** ** Bounds of sine and cosine *)

Lemma fact_next n : INR (fact (S n)) = (INR n + 1) * INR (fact n).
Proof. rewrite fact_simpl, mult_INR, S_INR. reflexivity. Qed.
Ltac facts H := rewrite ?fact_next in H; change (fact 0) with 1%nat in H; rewrite ?S_INR in H; change (INR 0) with 0 in H.

Lemma sin_low a : 0 <= a <= 2 -> a - a ^ 3 / 6 + a ^ 5 / 120 - a ^ 7 / 5040 <= sin a.
Proof.
  intros H. destruct (pre_sin_bound a 1 ltac:(lra) ltac:(lra)) as [L _].
  unfold sin_approx, sin_term in L. cbn [Nat.mul Nat.add sum_f_R0] in L. facts L.
  eapply Rle_trans; [|exact L]. right. field.
Qed.
Lemma sin_high a : 0 <= a <= 2 -> sin a <= a - a ^ 3 / 6 + a ^ 5 / 120 - a ^ 7 / 5040 + a ^ 9 / 362880.
Proof.
  intros H. destruct (pre_sin_bound a 1 ltac:(lra) ltac:(lra)) as [_ L].
  unfold sin_approx, sin_term in L. cbn [Nat.mul Nat.add sum_f_R0] in L. facts L.
  eapply Rle_trans; [exact L|]. right. field.
Qed.
Lemma cos_low a : 0 <= a <= 2 -> 1 - a ^ 2 / 2 + a ^ 4 / 24 - a ^ 6 / 720 <= cos a.
Proof.
  intros H. destruct (pre_cos_bound a 1 ltac:(lra) ltac:(lra)) as [L _].
  unfold cos_approx, cos_term in L. cbn [Nat.mul Nat.add sum_f_R0] in L. facts L.
  eapply Rle_trans; [|exact L]. right. field.
Qed.
Lemma cos_high a : 0 <= a <= 2 -> cos a <= 1 - a ^ 2 / 2 + a ^ 4 / 24 - a ^ 6 / 720 + a ^ 8 / 40320.
Proof.
  intros H. destruct (pre_cos_bound a 1 ltac:(lra) ltac:(lra)) as [_ L].
  unfold cos_approx, cos_term in L. cbn [Nat.mul Nat.add sum_f_R0] in L. facts L.
  eapply Rle_trans; [exact L|]. right. field.
Qed.

Lemma pow_le_one a n : 0 <= a <= 1 -> 0 <= a ^ n <= 1.
Proof.
  intros H. split; [apply pow_le; lra|]. rewrite <- (pow1 n). apply pow_incr. lra.
Qed.

Lemma cos_gap a : 0 < a <= 1 -> 9 / 10 * a ^ 2 <= 2 * (1 - cos a).
Proof.
  intros H. pose proof (cos_high a ltac:(lra)) as C. apply Rle_trans with (2 * (a ^ 2 / 2 - a ^ 4 / 24 + a ^ 6 / 720 - a ^ 8 / 40320)); [|lra].
  assert (P : 0 <= a ^ 2) by (apply pow_le; lra).
  replace (2 * (a ^ 2 / 2 - a ^ 4 / 24 + a ^ 6 / 720 - a ^ 8 / 40320)) with
    (a ^ 2 * (1 - a ^ 2 / 12 + a ^ 4 / 360 - a ^ 6 / 20160)) by field.
  rewrite Rmult_comm. apply Rmult_le_compat_l; [exact P|].
  pose proof (pow_le_one a 2 ltac:(lra)). pose proof (pow_le_one a 4 ltac:(lra)). pose proof (pow_le_one a 6 ltac:(lra)). lra.
Qed.

(** a/2 cot (a/2) *)
Definition half_cot (a : R) : R := if Req_EM_T a 0 then 1 else a * sin a / (2 * (1 - cos a)).

Lemma half_cot_even a : half_cot (- a) = half_cot a.
Proof.
  unfold half_cot. destruct (Req_EM_T a 0), (Req_EM_T (- a) 0); try lra. rewrite sin_neg, cos_neg. f_equal. ring.
Qed.

Lemma half_cot_pos a : 0 < a <= 1 -> - (a ^ 6 / 10000) <= half_cot a - (1 - a ^ 2 / 12 - a ^ 4 / 720) <= 0.
Proof.
  intros H. unfold half_cot. destruct (Req_EM_T a 0) as [Z|_]; [lra|].
  pose proof (cos_gap a H) as G. pose proof (cos_low a ltac:(lra)) as C1. pose proof (cos_high a ltac:(lra)) as C2.
  pose proof (sin_low a ltac:(lra)) as S1. pose proof (sin_high a ltac:(lra)) as S2.
  pose proof (pow_le_one a 2 ltac:(lra)) as P2. pose proof (pow_le_one a 4 ltac:(lra)) as P4.
  assert (A2 : 0 < a ^ 2) by (apply pow_lt; lra). assert (A8 : 0 < a ^ 8) by (apply pow_lt; lra).
  assert (A6 : 0 < a ^ 6) by (apply pow_lt; lra).
  set (q := 1 - a ^ 2 / 12 - a ^ 4 / 720) in *. assert (Q : 0 <= q) by (unfold q; lra).
  set (d := 2 * (1 - cos a)) in *. assert (D : 0 < d) by lra.
  assert (D1 : 2 * (a ^ 2 / 2 - a ^ 4 / 24 + a ^ 6 / 720 - a ^ 8 / 40320) <= d) by (unfold d; lra).
  assert (D2 : d <= 2 * (a ^ 2 / 2 - a ^ 4 / 24 + a ^ 6 / 720)) by (unfold d; lra).
  pose proof (Rmult_le_compat_l q _ _ Q D1) as D3. pose proof (Rmult_le_compat_l q _ _ Q D2) as D4.
  pose proof (Rmult_le_compat_l a _ _ ltac:(lra) S1) as S3. pose proof (Rmult_le_compat_l a _ _ ltac:(lra) S2) as S4.
  assert (N1 : a * sin a - q * d <= 0).
  { apply Rle_trans with (a * (a - a ^ 3 / 6 + a ^ 5 / 120 - a ^ 7 / 5040 + a ^ 9 / 362880) -
      q * (2 * (a ^ 2 / 2 - a ^ 4 / 24 + a ^ 6 / 720 - a ^ 8 / 40320))); [lra|].
    replace (a * (a - a ^ 3 / 6 + a ^ 5 / 120 - a ^ 7 / 5040 + a ^ 9 / 362880) -
      q * (2 * (a ^ 2 / 2 - a ^ 4 / 24 + a ^ 6 / 720 - a ^ 8 / 40320))) with
      (- (a ^ 8 * (/ 30240 - a ^ 2 / 403200 + a ^ 4 / 14515200))) by (unfold q; field).
    assert (0 <= a ^ 8 * (/ 30240 - a ^ 2 / 403200 + a ^ 4 / 14515200)) by (apply Rmult_le_pos; lra). lra. }
  assert (N2 : - (a ^ 8 / 12096) <= a * sin a - q * d).
  { apply Rle_trans with (a * (a - a ^ 3 / 6 + a ^ 5 / 120 - a ^ 7 / 5040) - q * (2 * (a ^ 2 / 2 - a ^ 4 / 24 + a ^ 6 / 720))); [|lra].
    replace (a * (a - a ^ 3 / 6 + a ^ 5 / 120 - a ^ 7 / 5040) - q * (2 * (a ^ 2 / 2 - a ^ 4 / 24 + a ^ 6 / 720))) with
      (- (a ^ 8 / 12096) + a ^ 8 * (a ^ 2 / 259200)) by (unfold q; field).
    assert (0 <= a ^ 8 * (a ^ 2 / 259200)) by (apply Rmult_le_pos; lra). lra. }
  replace (a * sin a / d - q) with ((a * sin a - q * d) / d) by (field; lra). split.
  - apply Rmult_le_reg_r with d; [exact D|]. unfold Rdiv at 2. rewrite Rmult_assoc, Rinv_l, Rmult_1_r by lra.
    apply Rle_trans with (- (a ^ 8 / 12096)); [|exact N2].
    assert (a ^ 6 / 10000 * (9 / 10 * a ^ 2) <= a ^ 6 / 10000 * d) by (apply Rmult_le_compat_l; lra).
    replace (a ^ 6 / 10000 * (9 / 10 * a ^ 2)) with (a ^ 8 * (9 / 100000)) in H0 by field. lra.
  - apply Rmult_le_reg_r with d; [exact D|]. unfold Rdiv. rewrite Rmult_assoc, Rinv_l, Rmult_1_r, Rmult_0_l by lra. exact N1.
Qed.

Lemma half_cot_bound a : Rabs a <= 1 -> - (a ^ 6 / 10000) <= half_cot a - (1 - a ^ 2 / 12 - a ^ 4 / 720) <= 0.
Proof.
  intros H. destruct (Rtotal_order a 0) as [L|[->|L]].
  - rewrite Rabs_left in H by lra. pose proof (half_cot_pos (- a) ltac:(lra)) as X. rewrite half_cot_even in X.
    replace ((- a) ^ 6) with (a ^ 6) in X by ring. replace ((- a) ^ 2) with (a ^ 2) in X by ring.
    replace ((- a) ^ 4) with (a ^ 4) in X by ring. exact X.
  - unfold half_cot. destruct (Req_EM_T 0 0) as [_|Z]; [|congruence]. simpl. lra.
  - rewrite Rabs_pos_eq in H by lra. apply half_cot_pos. lra.
Qed.

(** A function close to a line is differentiable. *)
Lemma derive_quadratic (f : R -> R) m K : 0 < K -> (forall a, Rabs a <= 1 -> Rabs (f a - f 0 - m * a) <= K * a ^ 2) ->
  is_derive f 0 m.
Proof.
  intros HK H. apply is_derive_Reals. intros eps He.
  assert (Hd : 0 < Rmin 1 (eps / K)) by (apply Rmin_pos; [lra|]; now apply Rdiv_lt_0_compat).
  exists (mkposreal _ Hd). cbn [pos]. intros h Hh Hl.
  assert (L1 : Rabs h < 1) by (eapply Rlt_le_trans; [exact Hl|apply Rmin_l]).
  assert (L2 : Rabs h < eps / K) by (eapply Rlt_le_trans; [exact Hl|apply Rmin_r]).
  pose proof (H h ltac:(lra)) as B. rewrite Rplus_0_l. replace ((f h - f 0) / h - m) with ((f h - f 0 - m * h) / h) by (field; exact Hh).
  unfold Rdiv. rewrite Rabs_mult, Rabs_inv. pose proof (Rabs_pos_lt h Hh) as Ph.
  apply Rmult_lt_reg_r with (Rabs h); [exact Ph|]. rewrite Rmult_assoc, Rinv_l, Rmult_1_r by lra.
  eapply Rle_lt_trans; [exact B|]. replace (h ^ 2) with (Rabs h * Rabs h) by (rewrite <- Rabs_mult; rewrite Rabs_pos_eq; [ring|nra]).
  rewrite <- Rmult_assoc. apply Rmult_lt_compat_r; [exact Ph|].
  apply Rmult_lt_reg_r with (/ K); [now apply Rinv_0_lt_compat|]. replace (K * Rabs h * / K) with (Rabs h) by (field; lra). exact L2.
Qed.

(** The derivative of half_cot. *)
Definition half_cot' (a : R) : R := if Req_EM_T a 0 then 0 else (sin a - a) / (2 * (1 - cos a)).

Lemma half_cot_derive a : cos a <> 1 \/ a = 0 -> is_derive half_cot a (half_cot' a).
Proof.
  intros [H|H].
  - assert (N : a <> 0) by (intros ->; now rewrite cos_0 in H). unfold half_cot'. destruct (Req_EM_T a 0) as [Z|_]; [contradiction|].
    apply (is_derive_ext_loc (fun a => a * sin a / (2 * (1 - cos a)))).
    + assert (P : 0 < Rabs a) by (now apply Rabs_pos_lt). exists (mkposreal _ P). intros y Hy.
      unfold half_cot. destruct (Req_EM_T y 0) as [->|_]; [|reflexivity].
      exfalso. change (Rabs (0 - a) < Rabs a) in Hy. replace (0 - a) with (- a) in Hy by ring. rewrite Rabs_Ropp in Hy. lra.
    + auto_derive; [lra|]. pose proof (cos_sin_unit a) as U.
      assert (Q : sin a * sin a = (1 - cos a) * (1 + cos a)) by lra.
      replace ((sin a - a) / (2 * (1 - cos a))) with ((sin a - a) * (1 - cos a) * 2 * / ((2 * (1 - cos a)) * (2 * (1 - cos a)))) by (field; lra).
      match goal with |- ?l = _ => replace l with (((sin a + a * cos a) * (2 * (1 - cos a)) - 2 * a * (sin a * sin a)) * / ((2 * (1 - cos a)) * (2 * (1 - cos a)))) by (field; lra) end.
      rewrite Q. f_equal. ring.
  - subst a. unfold half_cot'. destruct (Req_EM_T 0 0) as [_|Z]; [|congruence].
    apply (derive_quadratic _ _ 1); [lra|]. intros a Ha. pose proof (half_cot_bound a Ha) as B.
    assert (E0 : half_cot 0 = 1) by (unfold half_cot; destruct (Req_EM_T 0 0); congruence). rewrite E0.
    assert (P2 : 0 <= a ^ 2 <= 1).
    { rewrite <- pow2_abs. apply pow_le_one. split; [apply Rabs_pos|exact Ha]. }
    replace (a ^ 6) with (a ^ 2 * (a ^ 2 * a ^ 2)) in B by ring. replace (a ^ 4) with (a ^ 2 * a ^ 2) in B by ring.
    set (b := a ^ 2) in *. assert (b * b <= b) by nra. assert (b * (b * b) <= b) by nra. assert (0 <= b * (b * b)) by nra. assert (0 <= b * b) by nra.
    apply Rabs_le. lra.
Qed.

(** ** The angle of a rotation that moves *)

Lemma rot_atan c s : c * c + s * s = 1 -> 0 < c -> cos (atan (s / c)) = c /\ sin (atan (s / c)) = s.
Proof.
  intros U Hc. assert (Q : sqrt (1 + (s / c)²) = / c).
  { assert (E : 1 + (s / c)² = (/ c)²).
    { unfold Rsqr. replace (1 + s / c * (s / c)) with ((c * c + s * s) / (c * c)) by (field; lra). rewrite U. field. lra. }
    rewrite E. apply sqrt_Rsqr. left. now apply Rinv_0_lt_compat. }
  rewrite cos_atan, sin_atan, Q. split; field; lra.
Qed.

Ltac du H := match type of H with is_derive ?f ?x ?l =>
  let E := fresh in assert (E : Derive (fun y => f y) x = l) by (apply is_derive_unique; exact H); cbn beta in E; rewrite E; clear E end.

Lemma derive_combine (f g : R -> R) f' g' a b : is_derive f 0 f' -> is_derive g 0 g' ->
  is_derive (fun e => f e * a + g e * b) 0 (f' * a + g' * b).
Proof.
  intros Hf Hg. auto_derive.
  - split; [now exists f'|]. split; [now exists g'|exact I].
  - du Hf. du Hg. ring.
Qed.

Lemma heading_derive (r : R -> rot2) k :
  is_derive (fun e => rc (r e)) 0 (- rs (r 0) * k) -> is_derive (fun e => rs (r e)) 0 (rc (r 0) * k) ->
  heading (r 0) <> PI -> is_derive (fun e => heading (r e)) 0 k.
Proof.
  intros Hc Hs Hp. set (a := heading (r 0)) in *. pose proof (heading_bounds (r 0)) as B. fold a in B.
  assert (Ea : rot_of a = r 0) by apply rot_heading.
  assert (C0 : rc (r 0) = cos a) by (now rewrite <- Ea). assert (S0 : rs (r 0) = sin a) by (now rewrite <- Ea).
  pose proof (cos_sin_unit a) as U.
  set (C := fun e => rc (r e) * cos a + rs (r e) * sin a). set (T := fun e => rs (r e) * cos a + rc (r e) * - sin a).
  assert (DC : is_derive C 0 0).
  { pose proof (derive_combine _ _ _ _ (cos a) (sin a) Hc Hs) as X. rewrite C0, S0 in X.
    replace (- sin a * k * cos a + cos a * k * sin a) with 0 in X by ring. exact X. }
  assert (DT : is_derive T 0 k).
  { pose proof (derive_combine _ _ _ _ (cos a) (- sin a) Hs Hc) as X. rewrite C0, S0 in X.
    replace (cos a * k * cos a + - sin a * k * - sin a) with ((cos a * cos a + sin a * sin a) * k) in X by ring.
    rewrite U, Rmult_1_l in X. exact X. }
  assert (EC : C 0 = 1) by (unfold C; rewrite C0, S0; exact U).
  assert (ET : T 0 = 0) by (unfold T; rewrite C0, S0; ring).
  set (f := fun e => a + atan (T e / C e)).
  assert (Df : is_derive f 0 k).
  { unfold f. auto_derive.
    - split; [now exists k|]. split; [now exists 0|]. split; [rewrite EC; lra|exact I].
    - du DC. du DT. rewrite EC, ET. field. }
  assert (Ef : f 0 = a) by (unfold f; rewrite EC, ET, Rdiv_1, atan_0; ring).
  apply (is_derive_ext_loc f); [|exact Df].
  pose proof (ex_derive_continuous C 0 (ex_intro _ _ DC)) as KC. pose proof (ex_derive_continuous f 0 (ex_intro _ _ Df)) as Kf.
  assert (L1 : locally 0 (fun e => 0 < C e)).
  { apply (KC (fun y => 0 < y)). apply (open_gt 0 (C 0)). rewrite EC. lra. }
  assert (L2 : locally 0 (fun e => - PI < f e)).
  { apply (Kf (fun y => - PI < y)). apply (open_gt (- PI) (f 0)). rewrite Ef. lra. }
  assert (L3 : locally 0 (fun e => f e < PI)).
  { apply (Kf (fun y => y < PI)). apply (open_lt PI (f 0)). rewrite Ef. lra. }
  generalize (filter_and _ _ L1 (filter_and _ _ L2 L3)). apply filter_imp. intros e (P1 & P2 & P3).
  symmetry. apply angle_unique; [apply heading_bounds|lra|]. rewrite rot_heading.
  destruct (rot_atan (C e) (T e)) as [A1 A2]; [|exact P1|].
  { unfold C, T. pose proof (r_unit (r e)) as V.
    transitivity ((rc (r e) * rc (r e) + rs (r e) * rs (r e)) * (cos a * cos a + sin a * sin a)); [ring|rewrite U, V; ring]. }
  apply rot2_ext; cbn [rc rs rot_of]; unfold f; [rewrite cos_plus|rewrite sin_plus]; rewrite A1, A2; unfold C, T.
  - transitivity (rc (r e) * (cos a * cos a + sin a * sin a)); [rewrite U; ring|ring].
  - transitivity (rs (r e) * (cos a * cos a + sin a * sin a)); [rewrite U; ring|ring].
Qed.

(** ** The logarithm *)

(** The exact Jacobian of the logarithm with value [v]. *)
Definition log_gap (a : R) : R := if Req_EM_T a 0 then 0 else (1 - half_cot a) / a.
Definition log_jacobian (v : twist2) : mat3 :=
  let a := w2_w v in
  Mat3 (Twist2 (half_cot a) (- (1 / 2) * a) (w2_x v * log_gap a + 1 / 2 * w2_y v))
       (Twist2 (1 / 2 * a) (half_cot a) (w2_y v * log_gap a - 1 / 2 * w2_x v))
       (Twist2 0 0 1).

Lemma log_formula p : let a := heading (p2_rot p) in
  se2_log p = Twist2 (half_cot a * p2_x p + a / 2 * p2_y p) (half_cot a * p2_y p - a / 2 * p2_x p) a.
Proof.
  cbv zeta. unfold se2_log, half_cot. cbv zeta. destruct (Req_EM_T (heading (p2_rot p)) 0) as [->|E]; [f_equal; lra|].
  pose proof (cos_less _ (heading_bounds _) E). f_equal; field; lra.
Qed.

Lemma derive_three (h x y g : R -> R) h' x' y' g' : is_derive h 0 h' -> is_derive x 0 x' -> is_derive y 0 y' -> is_derive g 0 g' ->
  is_derive (fun e => h e * x e + g e / 2 * y e) 0 (h' * x 0 + h 0 * x' + g' / 2 * y 0 + g 0 / 2 * y').
Proof.
  intros Hh Hx Hy Hg. auto_derive.
  - split; [now exists h'|]. split; [now exists x'|]. split; [now exists g'|]. split; [now exists y'|exact I].
  - du Hh. du Hx. du Hy. du Hg. field.
Qed.

Lemma is_derive_eq (f : R -> R) (x l l' : R) : is_derive f x l -> l = l' -> is_derive f x l'.
Proof. now intros H <-. Qed.

Lemma turn_facts a : cos a <> 1 \/ a = 0 ->
  half_cot a * cos a + a / 2 * sin a = half_cot a /\ half_cot a * sin a - a / 2 * cos a = a / 2 /\
  half_cot' a = half_cot a * log_gap a - a / 4 /\ a * log_gap a = 1 - half_cot a.
Proof.
  intros H. unfold log_gap, half_cot', half_cot. destruct (Req_EM_T a 0) as [->|E].
  - rewrite cos_0, sin_0. lra.
  - destruct H as [H|H]; [|contradiction]. assert (D : 1 - cos a <> 0) by lra. pose proof (cos_sin_unit a) as U.
    assert (Q : sin a * sin a = (1 - cos a) * (1 + cos a)) by lra. set (c := cos a) in *. set (s := sin a) in *. repeat split.
    + field. exact D.
    + replace (a * s / (2 * (1 - c)) * s - a / 2 * c) with (a * (s * s) / (2 * (1 - c)) - a / 2 * c) by (field; exact D).
      rewrite Q. field. exact D.
    + replace (a * s / (2 * (1 - c)) * ((1 - a * s / (2 * (1 - c))) / a) - a / 4) with
        (s / (2 * (1 - c)) - a * (s * s) / (4 * ((1 - c) * (1 - c))) - a / 4) by (field; auto).
      rewrite Q. field. exact D.
    + field. auto.
Qed.

Lemma log_varies P w : moves P w -> heading (p2_rot (P 0)) <> PI ->
  varies (fun e => se2_log (P e)) (mat3_apply (log_jacobian (se2_log (P 0))) w).
Proof.
  intros [Mc Ms Mx My] Hp. pose proof (heading_derive (fun e => p2_rot (P e)) _ Mc Ms Hp) as Da. cbn beta in Da.
  set (a := fun e => heading (p2_rot (P e))) in *. pose proof (heading_bounds (p2_rot (P 0))) as B. fold (a 0) in B.
  assert (Ca : cos (a 0) <> 1 \/ a 0 = 0).
  { destruct (Req_EM_T (a 0) 0) as [E|E]; [now right|left]. pose proof (cos_less _ B E). lra. }
  assert (Dh : is_derive (fun e => half_cot (a e)) 0 (w2_w w * half_cot' (a 0))).
  { exact (is_derive_comp half_cot a 0 _ _ (half_cot_derive _ Ca) Da). }
  pose proof (derive_three _ _ _ _ _ _ _ _ Dh Mx My Da) as Lx.
  assert (Mx' : is_derive (fun e => - p2_x (P e)) 0 (- turn_x (p2_rot (P 0)) (w2_x w) (w2_y w))) by exact (is_derive_opp _ _ _ Mx).
  pose proof (derive_three _ _ _ _ _ _ _ _ Dh My Mx' Da) as Ly.
  assert (R0 : rc (p2_rot (P 0)) = cos (a 0) /\ rs (p2_rot (P 0)) = sin (a 0)).
  { unfold a. now rewrite <- (rot_heading (p2_rot (P 0))) at 1 3. }
  destruct R0 as [Rc Rs]. pose proof (cos_sin_unit (a 0)) as U. rewrite log_formula. cbv zeta. fold (a 0).
  split.
  - apply (is_derive_ext (fun e => half_cot (a e) * p2_x (P e) + a e / 2 * p2_y (P e))); [intros e; now rewrite log_formula|].
    eapply is_derive_eq; [exact Lx|]. clear Lx Ly Dh Da. unfold mat3_apply, dot3, log_jacobian, turn_x, turn_y. cbn -[half_cot half_cot' log_gap].
    destruct (turn_facts (a 0) Ca) as (E1 & E2 & E3 & E4). rewrite Rc, Rs. change (heading (p2_rot (P 0))) with (a 0).
    set (h := half_cot (a 0)) in *. set (g := log_gap (a 0)) in *. set (x := p2_x (P 0)). set (y := p2_y (P 0)).
    transitivity (w2_x w * (h * cos (a 0) + a 0 / 2 * sin (a 0)) - w2_y w * (h * sin (a 0) - a 0 / 2 * cos (a 0)) +
      w2_w w * half_cot' (a 0) * x + w2_w w * y / 2); [field|].
    rewrite E1, E2, E3. transitivity (w2_x w * h - w2_y w * (a 0 / 2) + w2_w w * (h * g - a 0 / 4) * x + w2_w w * y / 2 * (h + a 0 * g));
      [rewrite E4; field|field].
  - apply (is_derive_ext (fun e => half_cot (a e) * p2_y (P e) + a e / 2 * - p2_x (P e))); [intros e; rewrite log_formula; cbn -[half_cot]; unfold a; ring|].
    eapply is_derive_eq; [exact Ly|]. clear Lx Ly Dh Da. unfold mat3_apply, dot3, log_jacobian, turn_x, turn_y. cbn -[half_cot half_cot' log_gap].
    destruct (turn_facts (a 0) Ca) as (E1 & E2 & E3 & E4). rewrite Rc, Rs. change (heading (p2_rot (P 0))) with (a 0).
    set (h := half_cot (a 0)) in *. set (g := log_gap (a 0)) in *. set (x := p2_x (P 0)). set (y := p2_y (P 0)).
    transitivity (w2_y w * (h * cos (a 0) + a 0 / 2 * sin (a 0)) + w2_x w * (h * sin (a 0) - a 0 / 2 * cos (a 0)) +
      w2_w w * half_cot' (a 0) * y - w2_w w * x / 2); [field|].
    rewrite E1, E2, E3. transitivity (w2_y w * h + w2_x w * (a 0 / 2) + w2_w w * (h * g - a 0 / 4) * y - w2_w w * x / 2 * (h + a 0 * g));
      [rewrite E4; field|field].
  - apply (is_derive_ext a); [intros e; now rewrite log_w|]. eapply is_derive_eq; [exact Da|].
    unfold mat3_apply, dot3, log_jacobian. cbn. ring.
Qed.

(** ** The two helper functions *)

Lemma quarter_power x y : 0 < x -> 0 < y -> x <= y ^ 4 -> Rpower x (1 / 4) <= y.
Proof.
  intros Hx Hy H. eapply Rle_trans; [apply Rle_Rpower_l; [lra|split; [exact Hx|exact H]]|].
  rewrite <- (Rpower_pow 4 y Hy), Rpower_mult. replace (INR 4 * (1 / 4)) with 1 by (cbn; field). rewrite Rpower_1; lra.
Qed.
Lemma quarter_power_low x y : 0 < y -> y ^ 4 <= x -> y <= Rpower x (1 / 4).
Proof.
  intros Hy H. assert (0 < y ^ 4) by now apply pow_lt.
  eapply Rle_trans; [|apply (Rle_Rpower_l (y ^ 4) x (1 / 4)); [lra|split; [assumption|exact H]]].
  rewrite <- (Rpower_pow 4 y Hy), Rpower_mult. replace (INR 4 * (1 / 4)) with 1 by (cbn; field). rewrite Rpower_1; lra.
Qed.

Definition threshold1 := Rpower (dbl_epsilon / ((330688 / 10000000000) / (833333 / 10000000))) (1 / 4) * 10.
Definition threshold2 := Rpower (dbl_epsilon / (138889 / 100000000)) (1 / 4) * 10.
Lemma threshold1_bounds : 1 / 1000 <= threshold1 <= 1 / 100.
Proof.
  unfold threshold1, dbl_epsilon.
  pose proof (quarter_power_low (/ 2 ^ 52 / ((330688 / 10000000000) / (833333 / 10000000))) (1 / 10000) ltac:(lra) ltac:(lra)).
  pose proof (quarter_power (/ 2 ^ 52 / ((330688 / 10000000000) / (833333 / 10000000))) (1 / 1000) ltac:(lra) ltac:(lra) ltac:(lra)). lra.
Qed.
Lemma threshold2_bounds : 1 / 1000 <= threshold2 <= 1 / 100.
Proof.
  unfold threshold2, dbl_epsilon.
  pose proof (quarter_power_low (/ 2 ^ 52 / (138889 / 100000000)) (1 / 10000) ltac:(lra) ltac:(lra)).
  pose proof (quarter_power (/ 2 ^ 52 / (138889 / 100000000)) (1 / 1000) ltac:(lra) ltac:(lra) ltac:(lra)). lra.
Qed.

Lemma small_cos a : cos a = 1 -> - PI < a <= PI -> a = 0.
Proof. intros H B. destruct (Req_dec a 0) as [E|E]; [exact E|]. pose proof (cos_less a B E). lra. Qed.

Lemma function2_exact a : - PI < a <= PI -> a = 0 \/ threshold2 < Rabs a -> function2 a = half_cot a.
Proof.
  intros B H. unfold function2. cbv zeta. fold threshold2. unfold half_cot. pose proof threshold2_bounds as T. destruct (Req_EM_T a 0) as [->|E].
  - rewrite Rabs_R0. destruct (Rlt_dec threshold2 0); [lra|]. lra.
  - destruct H as [H|H]; [contradiction|]. destruct (Rlt_dec threshold2 (Rabs a)); [|contradiction].
    field. pose proof (cos_less a B E). lra.
Qed.
Lemma function1_exact a : - PI < a <= PI -> a = 0 \/ threshold1 < Rabs a -> function1 a = log_gap a.
Proof.
  intros B H. unfold function1. cbv zeta. fold threshold1. unfold log_gap, half_cot. pose proof threshold1_bounds as T. destruct (Req_EM_T a 0) as [->|E].
  - rewrite Rabs_R0. destruct (Rlt_dec threshold1 0); [lra|]. lra.
  - destruct H as [H|H]; [contradiction|]. destruct (Rlt_dec threshold1 (Rabs a)); [|contradiction].
    field. pose proof (cos_less a B E). split; lra.
Qed.

Lemma function2_near a : - PI < a <= PI -> Rabs (function2 a - half_cot a) <= 2 / 10 ^ 11.
Proof.
  intros B. destruct (Rlt_dec threshold2 (Rabs a)) as [L|L].
  - rewrite function2_exact by auto. rewrite Rminus_eq_0, Rabs_R0. lra.
  - unfold function2. cbv zeta. fold threshold2. destruct (Rlt_dec threshold2 (Rabs a)); [contradiction|].
    pose proof threshold2_bounds as T. pose proof (half_cot_bound a ltac:(lra)) as H.
    assert (S1 : 0 <= a ^ 2 <= 1 / 10 ^ 4).
    { pose proof (Rabs_pos a). rewrite <- (pow2_abs a). split; [apply pow2_ge_0|].
      assert (Rabs a <= 1 / 100) by lra. pose proof (pow_incr (Rabs a) (1 / 100) 2 ltac:(lra)). lra. }
    replace (a ^ 6) with (a ^ 2 * (a ^ 2 * a ^ 2)) in H by ring. replace (a ^ 4) with (a ^ 2 * a ^ 2) in H by ring.
    set (q := a ^ 2) in *. assert (S2 : 0 <= q * q <= 1 / 10 ^ 8) by nra.
    assert (S3 : 0 <= q * (q * q) <= 1 / 10 ^ 12) by nra. apply Rabs_le. lra.
Qed.
Lemma function1_near a : - PI < a <= PI -> Rabs (function1 a - log_gap a) <= 4 / 10 ^ 10.
Proof.
  intros B. destruct (Rlt_dec threshold1 (Rabs a)) as [L|L].
  - rewrite function1_exact by auto. rewrite Rminus_eq_0, Rabs_R0. lra.
  - unfold function1. cbv zeta. fold threshold1. destruct (Rlt_dec threshold1 (Rabs a)); [contradiction|].
    pose proof threshold1_bounds as T. pose proof (half_cot_bound a ltac:(lra)) as H.
    unfold log_gap. destruct (Req_EM_T a 0) as [->|E]; [rewrite Rabs_pos_eq; lra|].
    set (e := 1 - a ^ 2 / 12 - a ^ 4 / 720 - half_cot a) in *. assert (Ee : e = 1 - a ^ 2 / 12 - a ^ 4 / 720 - half_cot a) by reflexivity.
    replace (half_cot a) with (1 - a ^ 2 / 12 - a ^ 4 / 720 - e) by (rewrite Ee; ring).
    replace (833333 / 10000000 * a + 138889 / 100000000 * a ^ 3 - (1 - (1 - a ^ 2 / 12 - a ^ 4 / 720 - e)) / a) with
      (- (1 / 30000000) * a + 1 / 900000000 * a ^ 3 - e / a) by (field; exact E).
    assert (A : 0 < Rabs a <= 1 / 100) by (pose proof (Rabs_pos_lt a E); lra).
    assert (Q : Rabs (e / a) <= Rabs a ^ 5 / 10000).
    { unfold Rdiv at 1. rewrite Rabs_mult, Rabs_inv. apply (Rmult_le_reg_r (Rabs a)); [lra|].
      rewrite Rmult_assoc, Rinv_l, Rmult_1_r by lra. rewrite Rabs_pos_eq by lra.
      replace (Rabs a ^ 5 / 10000 * Rabs a) with (a ^ 6 / 10000); [lra|]. replace (a ^ 6) with ((a ^ 2) ^ 3) by ring. rewrite <- pow2_abs. field. }
    pose proof (pow_incr (Rabs a) (1 / 100) 5 ltac:(lra)) as Q5. pose proof (pow_incr (Rabs a) (1 / 100) 3 ltac:(lra)) as Q3.
    assert (Q3' : Rabs (a ^ 3) <= 1 / 10 ^ 6) by (rewrite <- RPow_abs; lra).
    apply Rabs_le_between in Q. apply Rabs_le_between in Q3'. pose proof (proj1 (Rabs_le_between a (1 / 100)) (proj2 A)) as A'.
    apply Rabs_le. lra.
Qed.

(** ** Inverse and product of moving poses *)

(** [is_derive] of polynomials of differentiable functions. *)
Lemma d_opp (f : R -> R) f' : is_derive f 0 f' -> is_derive (fun e => - f e) 0 (- f').
Proof. intros H. exact (is_derive_opp _ _ _ H). Qed.
Lemma d_add (f g : R -> R) f' g' : is_derive f 0 f' -> is_derive g 0 g' -> is_derive (fun e => f e + g e) 0 (f' + g').
Proof. intros H K. exact (is_derive_plus _ _ _ _ _ H K). Qed.
Lemma d_sub (f g : R -> R) f' g' : is_derive f 0 f' -> is_derive g 0 g' -> is_derive (fun e => f e - g e) 0 (f' - g').
Proof. intros H K. exact (is_derive_minus _ _ _ _ _ H K). Qed.
Lemma d_mul (f g : R -> R) f' g' : is_derive f 0 f' -> is_derive g 0 g' -> is_derive (fun e => f e * g e) 0 (f' * g 0 + f 0 * g').
Proof. intros H K. apply (is_derive_mult f g 0 f' g' H K). intros n m. apply Rmult_comm. Qed.
Lemma d_const (c : R) : is_derive (fun _ : R => c) 0 0.
Proof. exact (is_derive_const c 0). Qed.
Ltac deriv := match goal with
  | |- is_derive (fun e => - @?f e) _ _ => apply (d_opp f); deriv
  | |- is_derive (fun e => @?f e + @?g e) _ _ => apply (d_add f g); deriv
  | |- is_derive (fun e => @?f e - @?g e) _ _ => apply (d_sub f g); deriv
  | |- is_derive (fun e => @?f e * @?g e) _ _ => apply (d_mul f g); deriv
  | |- is_derive (fun _ => ?c) _ _ => apply (d_const c)
  | _ => eassumption end.

Lemma moves_inv P w : moves P w -> moves (fun e => pose2_inv (P e)) (twist_opp (mat3_apply (adjoint (P 0)) w)).
Proof.
  intros [Mc Ms Mx My]. pose proof (r_unit (p2_rot (P 0))) as U.
  split; unfold pose2_inv, rot_inv, turn_x, turn_y, twist_opp, mat3_apply, adjoint, dot3; cbn [p2_rot p2_x p2_y rc rs w2_x w2_y w2_w m3_x m3_y m3_w];
    (eapply is_derive_eq; [deriv|]); unfold turn_x, turn_y.
  all: set (c := rc (p2_rot (P 0))) in *; set (s := rs (p2_rot (P 0))) in *; set (x := p2_x (P 0)) in *; set (y := p2_y (P 0)) in *.
  - ring.
  - ring.
  - transitivity (- (w2_x w * (c * c + s * s)) + w2_w w * (s * x - c * y)); [ring|]. rewrite U.
    transitivity (- (w2_x w * (c * c + s * s)) + w2_w w * (s * x - c * y)); [rewrite U|]; ring.
  - transitivity (- (w2_y w * (c * c + s * s)) + w2_w w * (c * x + s * y)); [ring|]. rewrite U.
    transitivity (- (w2_y w * (c * c + s * s)) + w2_w w * (c * x + s * y)); [rewrite U|]; ring.
Qed.

Lemma moves_mul P Q u w : moves P u -> moves Q w ->
  moves (fun e => pose2_mul (P e) (Q e)) (twist_add (mat3_apply (adjoint (pose2_inv (Q 0))) u) w).
Proof.
  intros [Mc Ms Mx My] [Nc Ns Nx Ny].
  pose proof (r_unit (p2_rot (Q 0))) as V.
  split; unfold pose2_inv, pose2_mul, rot_inv, rot_mul, turn_x, turn_y, twist_add, mat3_apply, adjoint, dot3; cbn [p2_rot p2_x p2_y rc rs w2_x w2_y w2_w m3_x m3_y m3_w];
    (eapply is_derive_eq; [deriv|]); unfold turn_x, turn_y; cbn [rc rs].
  all: set (c := rc (p2_rot (P 0))) in *; set (s := rs (p2_rot (P 0))) in *; set (x := p2_x (P 0)) in *; set (y := p2_y (P 0)) in *.
  all: set (c' := rc (p2_rot (Q 0))) in *; set (s' := rs (p2_rot (Q 0))) in *; set (x' := p2_x (Q 0)) in *; set (y' := p2_y (Q 0)) in *.
  - ring.
  - ring.
  - transitivity (c * w2_x u - s * w2_y u - w2_w u * (s * x' + c * y') + c * (c' * w2_x w - s' * w2_y w) - s * (s' * w2_x w + c' * w2_y w)); [ring|].
    transitivity ((c * w2_x u - s * w2_y u - w2_w u * (s * x' + c * y')) * (c' * c' + s' * s') + c * (c' * w2_x w - s' * w2_y w) - s * (s' * w2_x w + c' * w2_y w)); [rewrite V|]; ring.
  - transitivity (s * w2_x u + c * w2_y u + w2_w u * (c * x' - s * y') + s * (c' * w2_x w - s' * w2_y w) + c * (s' * w2_x w + c' * w2_y w)); [ring|].
    transitivity ((s * w2_x u + c * w2_y u + w2_w u * (c * x' - s * y')) * (c' * c' + s' * s') + s * (c' * w2_x w - s' * w2_y w) + c * (s' * w2_x w + c' * w2_y w)); [rewrite V|]; ring.
Qed.

(** ** The exponential *)

Definition sinc (a : R) : R := if Req_EM_T a 0 then 1 else sin a / a.
Definition versc (a : R) : R := if Req_EM_T a 0 then 0 else (1 - cos a) / a.
Definition sinc' (a : R) : R := if Req_EM_T a 0 then 0 else (cos a - sinc a) / a.
Definition versc' (a : R) : R := if Req_EM_T a 0 then 1 / 2 else (sin a - versc a) / a.

Lemma sinc_zero a : Rabs a <= 1 -> Rabs (sinc a - sinc 0 - 0 * a) <= 1 * a ^ 2.
Proof.
  intros H. unfold sinc. destruct (Req_EM_T 0 0) as [_|X]; [|congruence]. destruct (Req_EM_T a 0) as [->|E]; [rewrite Rabs_pos_eq; lra|].
  assert (G : forall b, 0 < b <= 1 -> Rabs (sin b / b - 1 - 0) <= 1 * b ^ 2).
  { intros b B. pose proof (sin_low b ltac:(lra)) as L. pose proof (sin_lt_x b ltac:(lra)) as U.
    assert (Eb : sin b / b - 1 - 0 = (sin b - b) / b) by (field; lra). rewrite Eb.
    unfold Rdiv. rewrite Rabs_mult, Rabs_inv, (Rabs_pos_eq b) by lra. apply (Rmult_le_reg_r b); [lra|].
    rewrite Rmult_assoc, Rinv_l, Rmult_1_r by lra. rewrite Rabs_left1 by lra.
    pose proof (pow_le_one b 2 ltac:(lra)) as P2. assert (0 <= b ^ 3) by (apply pow_le; lra). replace (b ^ 5) with (b ^ 3 * b ^ 2) in L by ring.
    replace (b ^ 7) with (b ^ 3 * (b ^ 2 * b ^ 2)) in L by ring. replace (1 * b ^ 2 * b) with (b ^ 3) by ring.
    assert (0 <= b ^ 2 * b ^ 2 <= b ^ 2) by nra. assert (0 <= b ^ 3 * (b ^ 2 * b ^ 2) <= b ^ 3 * b ^ 2) by nra. lra. }
  rewrite Rmult_0_l. destruct (Rle_or_lt 0 a) as [A|A].
  - rewrite Rabs_pos_eq in H by exact A. apply G. lra.
  - rewrite Rabs_left in H by exact A. specialize (G (- a) ltac:(lra)). rewrite sin_neg in G.
    replace (- sin a / - a) with (sin a / a) in G by (field; lra). replace ((- a) ^ 2) with (a ^ 2) in G by ring. exact G.
Qed.
Lemma versc_zero a : Rabs a <= 1 -> Rabs (versc a - versc 0 - 1 / 2 * a) <= 1 * a ^ 2.
Proof.
  intros H. unfold versc. destruct (Req_EM_T 0 0) as [_|X]; [|congruence]. destruct (Req_EM_T a 0) as [->|E]; [rewrite Rabs_pos_eq; lra|].
  assert (G : forall b, 0 < b <= 1 -> Rabs ((1 - cos b) / b - 0 - 1 / 2 * b) <= 1 * b ^ 2).
  { intros b B. pose proof (cos_low b ltac:(lra)) as L. pose proof (cos_high b ltac:(lra)) as U.
    assert (Eb : (1 - cos b) / b - 0 - 1 / 2 * b = (1 - b ^ 2 / 2 - cos b) / b) by (field; lra). rewrite Eb.
    unfold Rdiv at 1. rewrite Rabs_mult, Rabs_inv, (Rabs_pos_eq b) by lra. apply (Rmult_le_reg_r b); [lra|].
    rewrite Rmult_assoc, Rinv_l, Rmult_1_r by lra.
    assert (0 <= b ^ 3) by (apply pow_le; lra). replace (b ^ 4) with (b ^ 3 * b) in L, U by ring.
    replace (b ^ 6) with (b ^ 3 * b ^ 3) in L, U by ring. replace (b ^ 8) with (b ^ 3 * b ^ 5) in U by ring. replace (1 * b ^ 2 * b) with (b ^ 3) by ring.
    pose proof (pow_le_one b 3 ltac:(lra)). pose proof (pow_le_one b 5 ltac:(lra)).
    assert (0 <= b ^ 3 * b <= b ^ 3) by nra. assert (0 <= b ^ 3 * b ^ 3 <= b ^ 3) by nra. assert (0 <= b ^ 3 * b ^ 5 <= b ^ 3) by nra.
    apply Rabs_le. lra. }
  destruct (Rle_or_lt 0 a) as [A|A].
  - rewrite Rabs_pos_eq in H by exact A. apply G. lra.
  - rewrite Rabs_left in H by exact A. specialize (G (- a) ltac:(lra)). rewrite cos_neg in G.
    replace ((1 - cos a) / - a - 0 - 1 / 2 * - a) with (- ((1 - cos a) / a - 0 - 1 / 2 * a)) in G by (field; lra). rewrite Rabs_Ropp in G.
    replace ((- a) ^ 2) with (a ^ 2) in G by ring. exact G.
Qed.

Lemma away_zero a : a <> 0 -> locally a (fun b : R => b <> 0).
Proof.
  intros E. exists (mkposreal (Rabs a) (Rabs_pos_lt a E)). intros b B. change (Rabs (b - a) < Rabs a) in B.
  intros ->. replace (0 - a) with (- a) in B by ring. rewrite Rabs_Ropp in B. lra.
Qed.
Lemma sinc_derive a : is_derive sinc a (sinc' a).
Proof.
  unfold sinc'. destruct (Req_EM_T a 0) as [->|E]; [apply (derive_quadratic sinc 0 1 ltac:(lra)); exact sinc_zero|].
  apply (is_derive_ext_loc (fun b => sin b / b)).
  - generalize (away_zero a E). apply filter_imp. intros b B. unfold sinc. now destruct (Req_EM_T b 0).
  - auto_derive; [exact E|]. unfold sinc. destruct (Req_EM_T a 0); [contradiction|]. field. exact E.
Qed.
Lemma versc_derive a : is_derive versc a (versc' a).
Proof.
  unfold versc'. destruct (Req_EM_T a 0) as [->|E]; [apply (derive_quadratic versc (1 / 2) 1 ltac:(lra)); exact versc_zero|].
  apply (is_derive_ext_loc (fun b => (1 - cos b) / b)).
  - generalize (away_zero a E). apply filter_imp. intros b B. unfold versc. now destruct (Req_EM_T b 0).
  - auto_derive; [exact E|]. unfold versc. destruct (Req_EM_T a 0); [contradiction|]. field. exact E.
Qed.

Lemma exp_formula v : se2_exp v = Pose2 (rot_of (w2_w v)) (sinc (w2_w v) * w2_x v - versc (w2_w v) * w2_y v) (versc (w2_w v) * w2_x v + sinc (w2_w v) * w2_y v).
Proof.
  unfold se2_exp, sinc, versc. cbv zeta. destruct (Req_EM_T (w2_w v) 0) as [->|E]; f_equal; try ring; field; exact E.
Qed.

Definition gap3 (a : R) : R := if Req_EM_T a 0 then 0 else (1 - sinc a) / a.
Definition gap4 (a : R) : R := if Req_EM_T a 0 then 1 / 2 else versc a / a.
Lemma exp_jacobian_formula v : let a := w2_w v in exp_jacobian v =
  Mat3 (Twist2 (sinc a) (versc a) (w2_x v * gap3 a - w2_y v * gap4 a)) (Twist2 (- versc a) (sinc a) (w2_x v * gap4 a + w2_y v * gap3 a)) (Twist2 0 0 1).
Proof.
  cbv zeta. unfold exp_jacobian, gap3, gap4, sinc, versc. cbv zeta. destruct (Req_EM_T (w2_w v) 0) as [E|E]; f_equal; f_equal; (ring || (field; exact E)).
Qed.

Lemma exp_facts a : cos a * sinc a + sin a * versc a = sinc a /\ sin a * sinc a - cos a * versc a = versc a /\
  sinc' a = cos a * gap3 a - sin a * gap4 a /\ versc' a = sin a * gap3 a + cos a * gap4 a.
Proof.
  unfold sinc', versc', gap3, gap4, sinc, versc. destruct (Req_EM_T a 0) as [->|E]; [rewrite cos_0, sin_0; lra|].
  pose proof (cos_sin_unit a) as U. assert (Q : sin a * sin a = 1 - cos a * cos a) by lra. set (c := cos a) in *. set (s := sin a) in *. repeat split.
  - field. exact E.
  - replace (s * (s / a) - c * ((1 - c) / a)) with ((s * s - c * (1 - c)) / a) by (field; exact E). rewrite Q. field. exact E.
  - field. exact E.
  - replace (s * ((1 - s / a) / a) + c * ((1 - c) / a / a)) with (s / a - (s * s - c * (1 - c)) / (a * a)) by (field; exact E). rewrite Q. field. exact E.
Qed.

Lemma moves_exp v d : varies v d -> moves (fun e => se2_exp (v e)) (mat3_apply (exp_jacobian (v 0)) d).
Proof.
  intros [Vx Vy Vw].  rewrite exp_jacobian_formula. cbv zeta. set (a := w2_w (v 0)).
  assert (Dw : w2_w (mat3_apply (Mat3 (Twist2 (sinc a) (versc a) (w2_x (v 0) * gap3 a - w2_y (v 0) * gap4 a))
    (Twist2 (- versc a) (sinc a) (w2_x (v 0) * gap4 a + w2_y (v 0) * gap3 a)) (Twist2 0 0 1)) d) = w2_w d) by (unfold mat3_apply, dot3; cbn; ring).
  assert (Ds : is_derive (fun e => sinc (w2_w (v e))) 0 (w2_w d * sinc' a)) by exact (is_derive_comp sinc (fun e => w2_w (v e)) 0 _ _ (sinc_derive a) Vw).
  assert (Dv : is_derive (fun e => versc (w2_w (v e))) 0 (w2_w d * versc' a)) by exact (is_derive_comp versc (fun e => w2_w (v e)) 0 _ _ (versc_derive a) Vw).
  destruct (exp_facts a) as (F1 & F2 & F3 & F4).
  split; rewrite ?Dw.
  - apply (is_derive_ext (fun e => cos (w2_w (v e)))); [intros e; now rewrite exp_formula|]. rewrite exp_formula. cbn [p2_rot rot_of rs].
    eapply is_derive_eq; [exact (is_derive_comp cos _ 0 _ _ (is_derive_cos a) Vw)|]. unfold scal. cbn. unfold mult. cbn. fold a. ring.
  - apply (is_derive_ext (fun e => sin (w2_w (v e)))); [intros e; now rewrite exp_formula|]. rewrite exp_formula. cbn [p2_rot rot_of rc].
    eapply is_derive_eq; [exact (is_derive_comp sin _ 0 _ _ (is_derive_sin a) Vw)|]. unfold scal. cbn. unfold mult. cbn. fold a. ring.
  - apply (is_derive_ext (fun e => sinc (w2_w (v e)) * w2_x (v e) - versc (w2_w (v e)) * w2_y (v e))); [intros e; now rewrite exp_formula|].
    rewrite exp_formula. cbn [p2_rot]. fold a. unfold turn_x, mat3_apply, dot3. cbn [rot_of rc rs m3_x m3_y w2_x w2_y w2_w].
    eapply is_derive_eq; [deriv|]. fold a. rewrite F3, F4.
    transitivity (w2_x d * (cos a * sinc a + sin a * versc a) - w2_y d * (sin a * sinc a - cos a * versc a) +
      w2_w d * ((cos a * gap3 a - sin a * gap4 a) * w2_x (v 0) - (sin a * gap3 a + cos a * gap4 a) * w2_y (v 0))); [rewrite F1, F2; ring|ring].
  - apply (is_derive_ext (fun e => versc (w2_w (v e)) * w2_x (v e) + sinc (w2_w (v e)) * w2_y (v e))); [intros e; now rewrite exp_formula|].
    rewrite exp_formula. cbn [p2_rot]. fold a. unfold turn_y, mat3_apply, dot3. cbn [rot_of rc rs m3_x m3_y w2_x w2_y w2_w].
    eapply is_derive_eq; [deriv|]. fold a. rewrite F3, F4.
    transitivity (w2_y d * (cos a * sinc a + sin a * versc a) + w2_x d * (sin a * sinc a - cos a * versc a) +
      w2_w d * ((cos a * gap3 a - sin a * gap4 a) * w2_y (v 0) + (sin a * gap3 a + cos a * gap4 a) * w2_x (v 0))); [rewrite F1, F2; ring|ring].
Qed.

(** ** A pose that moves *)

Definition motion (T : pose2) (w : twist2) (e : R) : pose2 := pose2_mul T (se2_exp (se2_scale w e)).

Lemma exp_zero a b : se2_exp (Twist2 (a * 0) (b * 0) 0) = pose2_one.
Proof. unfold se2_exp. cbn. destruct (Req_EM_T 0 0) as [_|X]; [|congruence]. unfold pose2_one. f_equal; ring. Qed.
Lemma motion_zero T w : motion T w 0 = T.
Proof.
  unfold motion. replace (se2_scale w 0) with (Twist2 (w2_x w * 0) (w2_y w * 0) 0) by (unfold se2_scale; f_equal; ring).
  rewrite exp_zero. apply pose2_ext; cbn; unfold turn_x, turn_y; cbn; rewrite ?cos_0, ?sin_0; ring.
Qed.
Lemma motion_moves T w : moves (motion T w) w.
Proof.
  assert (C : moves (fun _ => T) (Twist2 0 0 0)).
  { split; cbn [w2_x w2_y w2_w]; unfold turn_x, turn_y; (eapply is_derive_eq; [apply d_const|ring]). }
  assert (I : is_derive (fun e : R => e) 0 1) by exact (is_derive_id 0).
  assert (V : varies (se2_scale w) w).
  { split; unfold se2_scale; cbn [w2_x w2_y w2_w]; (eapply is_derive_eq; [deriv|ring]). }
  pose proof (moves_mul _ _ _ _ C (moves_exp _ _ V)) as M. cbn beta in M.
  assert (E : twist_add (mat3_apply (adjoint (pose2_inv (se2_exp (se2_scale w 0)))) (Twist2 0 0 0)) (mat3_apply (exp_jacobian (se2_scale w 0)) w) = w).
  { unfold exp_jacobian. cbn [se2_scale w2_w w2_x w2_y]. destruct (Req_EM_T (w2_w w * 0) 0) as [_|X]; [|exfalso; apply X; ring].
    destruct w as [x y a]. unfold twist_add, mat3_apply, adjoint, dot3. cbn [m3_x m3_y m3_w w2_x w2_y w2_w]. f_equal; field. }
  rewrite E in M. exact M.
Qed.

(** A vector varies in one way only. *)
Lemma varies_unique v d d' : varies v d -> varies v d' -> d = d'.
Proof.
  intros [A B C] [A' B' C']. destruct d as [x y a], d' as [x' y' a']. cbn in *.
  apply is_derive_unique in A, B, C, A', B', C'. congruence.
Qed.
Lemma moves_unique P w w' : moves P w -> moves P w' -> w = w'.
Proof.
  intros [A B C D] [A' B' C' D'].
  pose proof (eq_trans (eq_sym (is_derive_unique _ _ _ A)) (is_derive_unique _ _ _ A')) as E1.
  pose proof (eq_trans (eq_sym (is_derive_unique _ _ _ B)) (is_derive_unique _ _ _ B')) as E2.
  pose proof (eq_trans (eq_sym (is_derive_unique _ _ _ C)) (is_derive_unique _ _ _ C')) as E3.
  pose proof (eq_trans (eq_sym (is_derive_unique _ _ _ D)) (is_derive_unique _ _ _ D')) as E4.
  pose proof (r_unit (p2_rot (P 0))) as U. unfold turn_x, turn_y in *. destruct w as [x y a], w' as [x' y' a']. cbn [w2_x w2_y w2_w] in *.
  set (c := rc (p2_rot (P 0))) in *. set (s := rs (p2_rot (P 0))) in *. f_equal.
  - transitivity (c * (c * x - s * y) + s * (s * x + c * y)); [transitivity ((c * c + s * s) * x); [rewrite U|]; ring|].
    rewrite E3, E4. transitivity ((c * c + s * s) * x'); [|rewrite U]; ring.
  - transitivity (c * (s * x + c * y) - s * (c * x - s * y)); [transitivity ((c * c + s * s) * y); [rewrite U|]; ring|].
    rewrite E3, E4. transitivity ((c * c + s * s) * y'); [|rewrite U]; ring.
  - transitivity (c * (c * a) - s * (- s * a)); [transitivity ((c * c + s * s) * a); [rewrite U|]; ring|].
    rewrite E1, E2. transitivity ((c * c + s * s) * a'); [|rewrite U]; ring.
Qed.
