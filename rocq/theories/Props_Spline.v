(** * C18 - C21: polynomial splines, over the reals *)

From Coq Require Import List Reals Lra Lia Bool Arith ZArith QArith.
From Verif Require Import Base Num TimeInst Spline SplineSpec LinSpec SplineProofs.
Import ListNotations.
Local Open Scope R_scope.

(** ** C18 *)

Theorem C18_position : forall o (s : spline R) t,
  (1 <= o <= 5)%nat -> length (s_coefs s) = (o + 1)%nat ->
  position_at o s t = poly o (s_coefs s) (Rmax 0 (Rmin t (s_duration s))).
Proof. intros o s t. apply position_poly. Qed.

Theorem C18_constant_outside : forall o (s : spline R) t,
  (t <= 0 -> position_at o s t = position_at o s 0) /\
  (s_duration s <= t -> position_at o s t = position_at o s (s_duration s)) /\
  (s_duration s <= 0 -> position_at o s t = position_at o s 0).
Proof.
  intros o s t. unfold position_at. rewrite !clamp_restrict.
  split; [|split]; intros Ht.
  - now rewrite !restrict_low by lra.
  - now rewrite !restrict_high by lra.
  - replace (restrict t (s_duration s)) with (restrict 0 (s_duration s)); [reflexivity|].
    rewrite (restrict_low 0) by lra. unfold restrict. symmetry. apply Rmax_left.
    pose proof (Rmin_r t (s_duration s)). lra.
Qed.

(** A default constructed spline: duration zero, the right number of coefficients, and
    the constant zero. *)
Theorem C18_default : forall o, (1 <= o <= 5)%nat ->
  let s := spline_default o : spline R in
  s_duration s = 0 /\ length (s_coefs s) = (o + 1)%nat /\
  forall t, position_at o s t = 0 /\ velocity_at o s t = 0 /\ acceleration_at o s t = 0.
Proof.
  intros o Ho s. split; [reflexivity|]. split; [apply repeat_length|]. intros t.
  unfold position_at, velocity_at, acceleration_at.
  generalize (clamp t (s_duration s)). intros x.
  do 6 (destruct o as [|o]; [try lia; subst s; cbn; numR; repeat split; ring|]). lia.
Qed.

(** ** C19 *)

Theorem C19_derivatives_inside : forall o (s : spline R) t,
  (1 <= o <= 5)%nat -> length (s_coefs s) = (o + 1)%nat -> 0 < t < s_duration s ->
  derivable_pt_lim (position_at o s) t (velocity_at o s t) /\
  derivable_pt_lim (velocity_at o s) t (acceleration_at o s t).
Proof.
  intros o s t Ho L Ht. split.
  - rewrite velocity_poly, restrict_in by (auto; lra).
    apply is_derive_Reals_ext with (f := fun t => poly o (s_coefs s) (restrict t (s_duration s))).
    { intros x. symmetry. now apply position_poly. }
    apply derive_inside; auto. apply poly_derive.
  - rewrite acceleration_poly, restrict_in by (auto; lra).
    apply is_derive_Reals_ext with (f := fun t => dpoly o (s_coefs s) (restrict t (s_duration s))).
    { intros x. symmetry. now apply velocity_poly. }
    apply derive_inside; auto. apply dpoly_derive.
Qed.

Theorem C19_derivatives_ends : forall o (s : spline R),
  (1 <= o <= 5)%nat -> length (s_coefs s) = (o + 1)%nat -> 0 < s_duration s ->
  right_derivative (position_at o s) 0 (velocity_at o s 0) /\
  right_derivative (velocity_at o s) 0 (acceleration_at o s 0) /\
  left_derivative (position_at o s) (s_duration s) (velocity_at o s (s_duration s)) /\
  left_derivative (velocity_at o s) (s_duration s) (acceleration_at o s (s_duration s)).
Proof.
  intros o s Ho L Hd.
  assert (Hr : forall f g x l, (forall y : R, f y = g y) -> right_derivative f x l -> right_derivative g x l).
  { intros f g x l E H eps He. destruct (H eps He) as (d & Hd0 & Hh). exists d. split; auto.
    intros h Hx. rewrite <- !E. auto. }
  assert (Hl : forall f g x l, (forall y : R, f y = g y) -> left_derivative f x l -> left_derivative g x l).
  { intros f g x l E H eps He. destruct (H eps He) as (d & Hd0 & Hh). exists d. split; auto.
    intros h Hx. rewrite <- !E. auto. }
  rewrite !velocity_poly, !acceleration_poly by auto. rewrite !restrict_in by lra.
  split; [|split; [|split]].
  - eapply Hr; [intros y; symmetry; now apply position_poly|]. apply (derive_right (poly o (s_coefs s))); auto. apply poly_derive.
  - eapply Hr; [intros y; symmetry; now apply velocity_poly|]. apply (derive_right (dpoly o (s_coefs s))); auto. apply dpoly_derive.
  - eapply Hl; [intros y; symmetry; now apply position_poly|]. apply (derive_left (poly o (s_coefs s))); auto. apply poly_derive.
  - eapply Hl; [intros y; symmetry; now apply velocity_poly|]. apply (derive_left (dpoly o (s_coefs s))); auto. apply dpoly_derive.
Qed.

(** Outside the range the velocity getter is not the derivative. *)
Theorem C19_derivative_everywhere_refuted : exists o (s : spline R) t,
  (1 <= o <= 5)%nat /\ length (s_coefs s) = (o + 1)%nat /\ 0 < s_duration s /\ s_duration s < t /\
  derivable_pt_lim (position_at o s) t 0 /\ velocity_at o s t = 1.
Proof.
  exists 1%nat, (mkSpline 1 [1; 0]), 2. simpl. split; [lia|]. split; [reflexivity|]. split; [lra|]. split; [lra|].
  split.
  - apply is_derive_Reals_ext_loc with (f := fun _ => position_at 1 (mkSpline 1 [1; 0]) 1) (d := 1); [lra| |].
    + intros y Hy. unfold position_at. rewrite !clamp_restrict. simpl s_duration.
      rewrite !restrict_high by (apply Rabs_def2 in Hy; lra). reflexivity.
    + apply derivable_pt_lim_const.
  - unfold velocity_at. simpl. numR. lra.
Qed.

(** ** C20 *)

(** Entry [i] of the vectors, for every order [o]: [t^(o-i)] and its derivatives in [t]. *)
Theorem C20_time_vectors : forall o (v : list R) t i,
  (1 <= o <= 5)%nat -> (i <= o)%nat ->
  let n := (o - i)%nat in
  nth_error (get_time_vector o v t) i = Some (t ^ n) /\
  nth_error (get_d_time_vector o v t) i = Some (INR n * t ^ (n - 1)) /\
  nth_error (get_diff_time_vector o v t) i = Some (INR n * t ^ (n - 1)) /\
  nth_error (get_dd_time_vector o v t) i = Some (INR n * INR (n - 1) * t ^ (n - 2)).
Proof.
  intros o v t i Ho Hi. unfold get_time_vector, get_d_time_vector, get_diff_time_vector, get_dd_time_vector.
  orders o; destruct i as [|[|[|[|[|[|i]]]]]]; try lia; simpl;
    unfold npow2, npow3, npow4, npow5; numR; repeat split; f_equal; ring.
Qed.

Theorem C20_time_vectors_length : forall o (v : list R) t, (1 <= o <= 5)%nat ->
  length (get_time_vector o v t) = (o + 1)%nat /\ length (get_d_time_vector o v t) = (o + 1)%nat /\
  length (get_diff_time_vector o v t) = (o + 1)%nat /\ length (get_dd_time_vector o v t) = (o + 1)%nat.
Proof. intros o v t Ho. orders o; repeat split. Qed.

(** The AtZero variants are the vectors at time 0. *)
Theorem C20_at_zero : forall o (v : list R), (1 <= o <= 5)%nat ->
  get_time_vector_at_zero o v = get_time_vector o v 0 /\
  get_d_time_vector_at_zero o v = get_d_time_vector o v 0 /\
  get_diff_time_vector_at_zero o v = get_d_time_vector o v 0 /\
  get_dd_time_vector_at_zero o v = get_dd_time_vector o v 0 /\
  get_ddiff_time_vector_at_zero o v = get_dd_time_vector o v 0.
Proof.
  intros o v Ho.
  unfold get_time_vector_at_zero, get_time_vector, get_d_time_vector_at_zero, get_d_time_vector,
    get_diff_time_vector_at_zero, get_dd_time_vector_at_zero, get_dd_time_vector, get_ddiff_time_vector_at_zero.
  orders o; unfold tau_zero, tau, dtau_zero, dtau, ddtau_zero, ddtau, npow2, npow3, npow4, npow5; numR;
    repeat split; repeat (apply f_equal2; [ring|]); reflexivity.
Qed.

(** The add variants add these vectors entry by entry. *)
Theorem C20_add_variants : forall o (v : list R) t i x,
  (1 <= o <= 5)%nat -> length v = (o + 1)%nat -> nth_error v i = Some x ->
  (forall y, nth_error (get_time_vector o v t) i = Some y -> nth_error (add_time_vector o v t) i = Some (x + y)) /\
  (forall y, nth_error (get_d_time_vector o v t) i = Some y -> nth_error (add_diff_time_vector o v t) i = Some (x + y)) /\
  (forall y, nth_error (get_dd_time_vector o v t) i = Some y -> nth_error (add_ddiff_time_vector o v t) i = Some (x + y)) /\
  (forall y, nth_error (get_time_vector o v 0) i = Some y -> nth_error (add_time_vector_at_zero o v) i = Some (x + y)) /\
  (forall y, nth_error (get_d_time_vector o v 0) i = Some y -> nth_error (add_diff_time_vector_at_zero o v) i = Some (x + y)) /\
  (forall y, nth_error (get_dd_time_vector o v 0) i = Some y -> nth_error (add_ddiff_time_vector_at_zero o v) i = Some (x + y)).
Proof.
  intros o v t i x Ho L Ex.
  assert (Hadd : forall (a b : list R) i x y, nth_error a i = Some x -> nth_error b i = Some y ->
            nth_error (vadd a b) i = Some (x + y)).
  { induction a as [|u a IH]; intros [|w b] [|j] x0 y0 E1 E2; simpl in *; try discriminate.
    - injection E1 as ->. injection E2 as ->. reflexivity.
    - apply IH; assumption. }
  destruct (C20_at_zero o v Ho) as (Z1 & Z2 & _ & Z4 & _).
  unfold get_time_vector_at_zero, get_d_time_vector_at_zero, get_dd_time_vector_at_zero in *.
  unfold add_time_vector_at_zero, add_diff_time_vector_at_zero, add_ddiff_time_vector_at_zero.
  rewrite Z1, Z2, Z4.
  repeat split; intros y Ey; apply Hadd; assumption.
Qed.

(** getDDiffTimeVector returns the first derivative, which never is the second. *)
Theorem C20_ddiff_refuted : forall o (v : list R) t, (1 <= o <= 5)%nat ->
  get_ddiff_time_vector o v t = get_d_time_vector o v t /\
  get_ddiff_time_vector o v t <> get_dd_time_vector o v t.
Proof.
  intros o v t Ho. split; [reflexivity|].
  unfold get_ddiff_time_vector, get_dd_time_vector. orders o; unfold dtau, ddtau; numR; intros E; injection E; intros; lra.
Qed.

(** ** C21 *)

Theorem C21_boundary : forall solve o (opts : options R),
  exact_solver solve -> (1 <= o <= 5)%nat -> 0 < o_tf opts ->
  let s := spline_of_options solve o opts in
  s_duration s = o_tf opts /\
  meets_start o (o_pos0 opts) (o_vel0 opts) (o_acc0 opts)
    (position_at o s 0) (velocity_at o s 0) (acceleration_at o s 0) /\
  meets_end o (o_posT opts) (o_velT opts) (o_accT opts)
    (position_at o s (o_tf opts)) (velocity_at o s (o_tf opts)) (acceleration_at o s (o_tf opts)).
Proof.
  intros solve o opts Hs Ho HT s. destruct (compute_ok solve o opts Hs Ho HT) as [L [B1 B2]].
  split; [reflexivity|].
  rewrite !(position_poly o s), !(velocity_poly o s), !(acceleration_poly o s) by auto.
  unfold s at 2 4 6 8 10 12. cbn [s_duration spline_of_options]. rewrite !restrict_in by lra.
  split; assumption.
Qed.

(** No other coefficients meet the conditions, whatever solver is used. *)
Theorem C21_unique : forall solve o (opts : options R) (s : spline R),
  exact_solver solve -> (1 <= o <= 5)%nat -> 0 < o_tf opts ->
  length (s_coefs s) = (o + 1)%nat -> s_duration s = o_tf opts ->
  meets_start o (o_pos0 opts) (o_vel0 opts) (o_acc0 opts)
    (position_at o s 0) (velocity_at o s 0) (acceleration_at o s 0) ->
  meets_end o (o_posT opts) (o_velT opts) (o_accT opts)
    (position_at o s (o_tf opts)) (velocity_at o s (o_tf opts)) (acceleration_at o s (o_tf opts)) ->
  s = spline_of_options solve o opts.
Proof.
  intros solve o opts s Hs Ho HT L Hd B1 B2. destruct (compute_ok solve o opts Hs Ho HT) as [L' B'].
  rewrite (position_poly o s), (velocity_poly o s), (acceleration_poly o s) in B1, B2 by auto.
  rewrite Hd in B1, B2. rewrite restrict_in in B1, B2 by lra.
  destruct s as [d cs]. simpl in *. unfold spline_of_options. subst d. f_equal.
  apply (boundary_unique o opts); auto. split; assumption.
Qed.

(** ** Concrete cases *)

(** A quintic over the rationals, computed with the Gaussian elimination. *)
Example C21_example :
  let s := spline_of_options gauss 5 (mkOptions 2 1 5 0 3 1 (-1))%Q in
  map (fun t => position_at 5 s t) [-1; 0; 2; 9]%Q = [1; 1; 5; 5]%Q /\
  map (fun t => velocity_at 5 s t) [0; 2]%Q = [0; 3]%Q /\
  map (fun t => acceleration_at 5 s t) [0; 2]%Q = [1; -1]%Q.
Proof. vm_compute. auto. Qed.

Example C21_hypotheses : exact_solver gauss /\ 0 < o_tf (mkOptions 2 1 5 0 3 1 (-1)).
Proof. split; [exact gauss_exact|]. simpl. lra. Qed.

Example C19_hypotheses : length (s_coefs (mkSpline 2 [1; 0; -3; 1])) = (3 + 1)%nat /\
  0 < 1 < s_duration (mkSpline 2 [1; 0; -3; 1]) /\ velocity_at 3 (mkSpline 2 [1; 0; -3; 1]) 1 = 0.
Proof.
  split; [reflexivity|]. split; [simpl; lra|].
  rewrite velocity_poly, restrict_in by (simpl; auto with arith; lra). unfold dpoly. simpl. lra.
Qed.

Print Assumptions C18_position.
Print Assumptions C18_constant_outside.
Print Assumptions C19_derivatives_inside.
Print Assumptions C19_derivatives_ends.
Print Assumptions C19_derivative_everywhere_refuted.
Print Assumptions C20_time_vectors.
Print Assumptions C20_time_vectors_length.
Print Assumptions C20_at_zero.
Print Assumptions C20_add_variants.
Print Assumptions C20_ddiff_refuted.
Print Assumptions C21_boundary.
Print Assumptions C21_unique.
