(** * Proofs about polynomial splines over the reals *)

From Coq Require Import List Reals Lra Lia Bool Arith.
From Coquelicot Require Import Coquelicot.
From Verif Require Import Base Num TimeInst Spline SplineSpec LinSpec.
Import ListNotations.
Local Open Scope R_scope.

(** Case analysis on the order 1..5 and on the list of coefficients. *)
Ltac orders o := destruct o as [|[|[|[|[|[|o]]]]]]; try lia.
Ltac explode l :=
  lazymatch goal with
  | Hl : length l = ?n |- _ =>
      simpl in Hl;
      repeat (let a := fresh "a" in let r := fresh "r" in
        lazymatch goal with
        | Hl : length ?l0 = S _ |- _ => destruct l0 as [|a r]; [discriminate|]; simpl in Hl; apply eq_add_S in Hl
        | Hl : length ?l0 = O |- _ => apply length_zero_iff_nil in Hl; subst l0
        end)
  end.

Ltac rings := unfold npow2, npow3, npow4, npow5; numR; try ring.

Lemma clamp_restrict t d : clamp t d = restrict t d.
Proof. unfold clamp, restrict. now rewrite nmaxR, nminR. Qed.

Lemma restrict_in t d : 0 <= t <= d -> restrict t d = t.
Proof. intros. unfold restrict. rewrite Rmin_left, Rmax_right; lra. Qed.
Lemma restrict_low t d : t <= 0 -> restrict t d = 0.
Proof.
  intros. unfold restrict. apply Rmax_left. pose proof (Rmin_l t d). lra.
Qed.
Lemma restrict_high t d : d <= t -> restrict t d = Rmax 0 d.
Proof. intros. unfold restrict. rewrite Rmin_right; lra. Qed.

Lemma tau_poly o cs t : (1 <= o <= 5)%nat -> length cs = (o + 1)%nat ->
  inner_product cs (tau o t) 0 = poly o cs t.
Proof. intros Ho L. orders o; explode cs; unfold poly; simpl; rings. Qed.

Lemma dtau_poly o cs t : (1 <= o <= 5)%nat -> length cs = (o + 1)%nat ->
  inner_product cs (dtau o t) 0 = dpoly o cs t.
Proof. intros Ho L. orders o; explode cs; unfold dpoly; simpl; rings. Qed.

Lemma ddtau_poly o cs t : (1 <= o <= 5)%nat -> length cs = (o + 1)%nat ->
  inner_product cs (ddtau o t) 0 = ddpoly o cs t.
Proof. intros Ho L. orders o; explode cs; unfold ddpoly; simpl; rings. Qed.

Lemma position_poly o (s : spline R) t : (1 <= o <= 5)%nat -> length (s_coefs s) = (o + 1)%nat ->
  position_at o s t = poly o (s_coefs s) (restrict t (s_duration s)).
Proof. intros Ho L. unfold position_at. rewrite clamp_restrict. now apply tau_poly. Qed.

Lemma velocity_poly o (s : spline R) t : (1 <= o <= 5)%nat -> length (s_coefs s) = (o + 1)%nat ->
  velocity_at o s t = dpoly o (s_coefs s) (restrict t (s_duration s)).
Proof. intros Ho L. unfold velocity_at. rewrite clamp_restrict. now apply dtau_poly. Qed.

Lemma acceleration_poly o (s : spline R) t : (1 <= o <= 5)%nat -> length (s_coefs s) = (o + 1)%nat ->
  acceleration_at o s t = ddpoly o (s_coefs s) (restrict t (s_duration s)).
Proof. intros Ho L. unfold acceleration_at. rewrite clamp_restrict. now apply ddtau_poly. Qed.

(** ** Derivatives *)

Lemma is_derive_Reals_ext (f g : R -> R) t l : (forall x, f x = g x) ->
  derivable_pt_lim f t l -> derivable_pt_lim g t l.
Proof.
  intros E H eps He. destruct (H eps He) as [d Hd]. exists d. intros h H0 H1. rewrite <- !E. auto.
Qed.

Lemma is_derive_Reals_ext_loc (f g : R -> R) t l d : 0 < d -> (forall x, Rabs (x - t) < d -> f x = g x) ->
  derivable_pt_lim f t l -> derivable_pt_lim g t l.
Proof.
  intros Hd E H. apply is_derive_Reals. apply is_derive_Reals in H.
  apply (is_derive_ext_loc f); [|exact H]. exists (mkposreal d Hd). intros y Hy. apply E. exact Hy.
Qed.

Lemma is_derive_sum (f g : nat -> R -> R) n t :
  (forall i, (i <= n)%nat -> is_derive (f i) t (g i t)) ->
  is_derive (fun t => sum_f_R0 (fun i => f i t) n) t (sum_f_R0 (fun i => g i t) n).
Proof.
  induction n as [|n IH]; intros H; simpl; [now apply H|].
  apply (is_derive_plus (fun t => sum_f_R0 (fun i => f i t) n)); [apply IH; auto|now apply H].
Qed.

Lemma poly_derive o cs t : is_derive (poly o cs) t (dpoly o cs t).
Proof.
  unfold poly, dpoly.
  apply (is_derive_sum (fun i t => nth (o - i) cs 0 * t ^ i)
                       (fun i t => nth (o - i) cs 0 * (INR i * t ^ (i - 1)))).
  intros i _. auto_derive; auto. replace (pred i) with (i - 1)%nat by lia. ring.
Qed.

Lemma dpoly_derive o cs t : is_derive (dpoly o cs) t (ddpoly o cs t).
Proof.
  unfold dpoly, ddpoly.
  apply (is_derive_sum (fun i t => nth (o - i) cs 0 * (INR i * t ^ (i - 1)))
                       (fun i t => nth (o - i) cs 0 * (INR i * INR (i - 1) * t ^ (i - 2)))).
  intros i _. auto_derive; auto. replace (pred (i - 1)) with (i - 2)%nat by lia. ring.
Qed.

Lemma derive_inside (f : R -> R) (d t l : R) : 0 < t < d ->
  is_derive f t l -> derivable_pt_lim (fun t => f (restrict t d)) t l.
Proof.
  intros Ht Hf. apply is_derive_Reals. apply (is_derive_ext_loc f); [|exact Hf].
  exists (mkposreal (Rmin t (d - t)) ltac:(apply Rmin_glb_lt; lra)).
  intros y Hy. unfold ball in Hy. simpl in Hy. unfold AbsRing_ball, abs, minus, plus, opp in Hy. simpl in Hy.
  rewrite restrict_in; [reflexivity|].
  pose proof (Rmin_l t (d - t)). pose proof (Rmin_r t (d - t)).
  apply Rabs_def2 in Hy. lra.
Qed.

Lemma derive_right (f : R -> R) (d l : R) : 0 < d ->
  is_derive f 0 l -> right_derivative (fun t => f (restrict t d)) 0 l.
Proof.
  intros Hd Hf eps He. apply is_derive_Reals in Hf. destruct (Hf eps He) as [delta Hdel].
  exists (Rmin delta d). split; [apply Rmin_glb_lt; [apply cond_pos|lra]|].
  intros h Hh. pose proof (Rmin_l delta d). pose proof (Rmin_r delta d).
  rewrite !restrict_in by lra. apply Hdel; [lra|]. rewrite Rabs_pos_eq; lra.
Qed.

Lemma derive_left (f : R -> R) (d l : R) : 0 < d ->
  is_derive f d l -> left_derivative (fun t => f (restrict t d)) d l.
Proof.
  intros Hd Hf eps He. apply is_derive_Reals in Hf. destruct (Hf eps He) as [delta Hdel].
  exists (Rmin delta d). split; [apply Rmin_glb_lt; [apply cond_pos|lra]|].
  intros h Hh. pose proof (Rmin_l delta d). pose proof (Rmin_r delta d).
  rewrite !restrict_in by lra.
  specialize (Hdel (- h) ltac:(lra) ltac:(rewrite Rabs_Ropp, Rabs_pos_eq; lra)).
  replace ((f d - f (d - h)) / h) with ((f (d + - h) - f d) / - h); [exact Hdel|].
  replace (d - h) with (d + - h) by ring. field. lra.
Qed.

(** ** Computing from boundary conditions *)

(** The conditions as linear equations, and their unique solution. *)
Definition hermite3 (T p0 v0 p1 v1 : R) : list R :=
  [ (T * (v0 + v1) - 2 * (p1 - p0)) / T ^ 3; (3 * (p1 - p0) - T * (2 * v0 + v1)) / T ^ 2; v0; p0 ].
Definition hermite4 (T p0 v0 a0 p1 v1 : R) : list R :=
  [ (T * (v1 - v0 - T * a0) - 3 * (p1 - p0 - T * v0 - T ^ 2 * a0 / 2)) / T ^ 4;
    (4 * (p1 - p0 - T * v0 - T ^ 2 * a0 / 2) - T * (v1 - v0 - T * a0)) / T ^ 3;
    a0 / 2; v0; p0 ].
Definition hermite5 (T p0 v0 a0 p1 v1 a1 : R) : list R :=
  [ (12 * (p1 - p0) - 6 * (v1 + v0) * T - (a0 - a1) * T ^ 2) / (2 * T ^ 5);
    (30 * (p0 - p1) + (14 * v1 + 16 * v0) * T + (3 * a0 - 2 * a1) * T ^ 2) / (2 * T ^ 4);
    (20 * (p1 - p0) - (8 * v1 + 12 * v0) * T - (3 * a0 - a1) * T ^ 2) / (2 * T ^ 3);
    a0 / 2; v0; p0 ].

(** Boundary conditions on a coefficient list, in terms of the polynomials. *)
Definition boundary (o : nat) (opts : options R) (cs : list R) : Prop :=
  meets_start o (o_pos0 opts) (o_vel0 opts) (o_acc0 opts) (poly o cs 0) (dpoly o cs 0) (ddpoly o cs 0) /\
  meets_end o (o_posT opts) (o_velT opts) (o_accT opts)
    (poly o cs (o_tf opts)) (dpoly o cs (o_tf opts)) (ddpoly o cs (o_tf opts)).

Lemma compute_ok solve o (opts : options R) : exact_solver solve -> (1 <= o <= 5)%nat -> 0 < o_tf opts ->
  length (compute solve o opts) = (o + 1)%nat /\ boundary o opts (compute solve o opts).
Proof.
  intros Hs Ho HT. destruct opts as [T p0 pT v0 vT a0 aT]. simpl in HT.
  assert (HT0 : T <> 0) by lra.
  orders o; unfold compute; cbn [o_tf o_pos0 o_posT o_vel0 o_velT o_acc0 o_accT].
  - split; [reflexivity|]. unfold boundary, meets_start, meets_end, poly, dpoly, ddpoly. simpl. numR.
    repeat split; intros; try lia; field; auto.
  - split; [reflexivity|]. unfold boundary, meets_start, meets_end, poly, dpoly, ddpoly, npow2. simpl. numR.
    repeat split; intros; try lia; field; auto.
  - destruct (Hs 4%nat [tau_zero 3; dtau_zero 3; tau 3 T; dtau 3 T] [p0; v0; pT; vT]) as [L E].
    + repeat constructor.
    + reflexivity.
    + exists (hermite3 T p0 v0 pT vT). split; [reflexivity|]. unfold mat_vec, hermite3. simpl. rings.
      repeat (apply f_equal2; [field; auto|]). reflexivity.
    + split; [exact L|]. set (cs := solve _ _ _) in *. clearbody cs. explode cs.
      unfold mat_vec in E. simpl in E. rings. injection E as E1 E2 E3 E4. unfold npow3, npow2 in *; numR.
      unfold boundary, meets_start, meets_end, poly, dpoly, ddpoly. simpl.
      repeat split; intros; try lia; lra.
  - destruct (Hs 5%nat [tau_zero 4; dtau_zero 4; ddtau_zero 4; tau 4 T; dtau 4 T] [p0; v0; a0; pT; vT]) as [L E].
    + repeat constructor.
    + reflexivity.
    + exists (hermite4 T p0 v0 a0 pT vT). split; [reflexivity|]. unfold mat_vec, hermite4. simpl. rings.
      repeat (apply f_equal2; [field; auto|]). reflexivity.
    + split; [exact L|]. set (cs := solve _ _ _) in *. clearbody cs. explode cs.
      unfold mat_vec in E. simpl in E. rings. injection E as E1 E2 E3 E4 E5.
      unfold npow4, npow3, npow2 in *; numR.
      unfold boundary, meets_start, meets_end, poly, dpoly, ddpoly. simpl.
      repeat split; intros; try lia; lra.
  - destruct (Hs 6%nat [tau_zero 5; dtau_zero 5; ddtau_zero 5; tau 5 T; dtau 5 T; ddtau 5 T]
                [p0; v0; a0; pT; vT; aT]) as [L E].
    + repeat constructor.
    + reflexivity.
    + exists (hermite5 T p0 v0 a0 pT vT aT). split; [reflexivity|]. unfold mat_vec, hermite5. simpl. rings.
      repeat (apply f_equal2; [field; auto|]). reflexivity.
    + split; [exact L|]. set (cs := solve _ _ _) in *. clearbody cs. explode cs.
      unfold mat_vec in E. simpl in E. rings. injection E as E1 E2 E3 E4 E5 E6.
      unfold npow5, npow4, npow3, npow2 in *; numR.
      unfold boundary, meets_start, meets_end, poly, dpoly, ddpoly. simpl.
      repeat split; intros; try lia; lra.
Qed.

Lemma prod_eq P x y : P <> 0 -> P * x = P * y -> x = y.
Proof. intros HP E. apply (Rmult_eq_reg_l P); auto. Qed.

Lemma boundary_unique o (opts : options R) cs cs' : (1 <= o <= 5)%nat -> 0 < o_tf opts ->
  length cs = (o + 1)%nat -> length cs' = (o + 1)%nat ->
  boundary o opts cs -> boundary o opts cs' -> cs = cs'.
Proof.
  intros Ho HT L L' H H'. destruct opts as [T p0 pT v0 vT ac0 acT]. cbn [o_tf] in HT.
  unfold boundary, meets_start, meets_end in *. cbn [o_tf o_pos0 o_posT o_vel0 o_velT o_acc0 o_accT] in *.
  destruct H as [(A1 & A2 & A3) (B1 & B2 & B3)]. destruct H' as [(A1' & A2' & A3') (B1' & B2' & B3')].
  unfold poly, dpoly, ddpoly in *.
  assert (HT2 : T * T <> 0) by nra. assert (HT3 : T * T * T <> 0) by nra.
  assert (HT4 : T * T * T * T <> 0) by nra. assert (HT5 : T * T * T * T * T <> 0) by nra.
  assert (M : forall a b c : R, a = c -> b = c -> T * a = T * b) by (intros; subst; reflexivity).
  assert (M2 : forall a b c : R, a = c -> b = c -> T * T * a = T * T * b) by (intros; subst; reflexivity).
  orders o; simpl in *;
    repeat match goal with H : (_ <= _)%nat -> _ |- _ => first [specialize (H ltac:(lia)) | clear H] end;
    try pose proof (M _ _ _ B2 B2'); try pose proof (M2 _ _ _ B3 B3'); clear M M2;
    explode cs; simpl in *.
  - assert (a0 = a2) by lra. assert (a = a1) by (apply (prod_eq T); lra). congruence.
  - assert (a1 = a4) by lra. assert (a0 = a3) by lra.
    assert (a = a2) by (apply (prod_eq (T * T)); [auto|]; subst; lra). congruence.
  - assert (a2 = a6) by lra. assert (a1 = a5) by lra. subst.
    assert (a0 = a4) by (apply (prod_eq (T * T)); [auto|]; lra).
    assert (a = a3) by (apply (prod_eq (T * T * T)); [auto|]; lra). congruence.
  - assert (a3 = a8) by lra. assert (a2 = a7) by lra. assert (a1 = a6) by lra. subst.
    assert (a0 = a5) by (apply (prod_eq (T * T * T)); [auto|]; lra).
    assert (a = a4) by (apply (prod_eq (T * T * T * T)); [auto|]; lra). congruence.
  - assert (a4 = a10) by lra. assert (a3 = a9) by lra. assert (a2 = a8) by lra. subst.
    assert (a1 = a7) by (apply (prod_eq (T * T * T)); [auto|]; lra).
    assert (a0 = a6) by (apply (prod_eq (T * T * T * T)); [auto|]; lra).
    assert (a = a5) by (apply (prod_eq (T * T * T * T * T)); [auto|]; lra). congruence.
Qed.
