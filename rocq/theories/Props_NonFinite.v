(** * C108: data that are infinite or not a number *)

From Coquelicot Require Import Coquelicot.
From Coq Require Import List Bool Arith NArith ZArith Reals Lra Lia Sorting.Sorted.
From Flocq Require Import Core IEEE754.BinarySingleNaN.
From Verif Require Import Base TimeOrder TimeB64 TimeInst KeyGen Manager ManagerSpec ManagerProofs ManagerProofs2
  Num NumB64 Sampling HermiteE3 HermiteSpec HermiteE3Proofs HermiteB64 HermiteErr Props_Binary64 Props_Rounding Props_RoundFit
  Quat QuatSpec QuatProofs QuatErr HermiteSE3 HermiteSE3Spec HermiteSE3Proofs Props_RoundSE3 Props_HalfTurn Spline.
Import ListNotations.
Local Open Scope R_scope.

(** ** Vocabulary *)

Definition pick (a : axis) (v : vec3 b64) : b64 := match a with AX => vx v | AY => vy v | AZ => vz v end.
Notation finite x := (is_finite x = true).

(** A time of the [j]-th of the segments between the times [ts]; the last one is closed. *)
Definition in_segment (ts : list b64) (j : nat) (t : b64) : Prop := finite t /\ (S j < length ts)%nat /\
  B2R (nth j ts tzero) <= B2R t /\
  (B2R t < B2R (nth (S j) ts tzero) \/ S (S j) = length ts /\ B2R t = B2R (nth (S j) ts tzero)).

(** ** Operations with a finite result *)

Lemma fin_add (x y : b64) : finite (nadd x y) -> finite x /\ finite y.
Proof. destruct x as [|[]| |], y as [|[]| |]; cbn; intros; try discriminate; auto. Qed.
Lemma fin_sub (x y : b64) : finite (nsub x y) -> finite x /\ finite y.
Proof. destruct x as [|[]| |], y as [|[]| |]; cbn; intros; try discriminate; auto. Qed.
Lemma fin_mul (x y : b64) : finite (nmul x y) -> finite x /\ finite y.
Proof. destruct x as [|[]| |], y as [|[]| |]; cbn; intros; try discriminate; auto. Qed.
Lemma fin_opp (x : b64) : finite (nopp x) -> finite x.
Proof. destruct x; cbn; auto. Qed.

(** ** Segments *)

Ltac finites := repeat match goal with
  | H : is_finite (nadd _ _) = true |- _ => apply fin_add in H as [? ?]
  | H : is_finite (nsub _ _) = true |- _ => apply fin_sub in H as [? ?]
  | H : is_finite (nmul _ _) = true |- _ => apply fin_mul in H as [? ?] end.

(** All that belongs to the coordinate [a] of a coefficient is finite. *)
Definition fine (a : axis) (k : knot b64) : Prop := finite (pick a (k_pos k)) /\ finite (pick a (k_vel k)).

Lemma value_fine a ta tb ka kb t : finite (pick a (e3_segment_value ta tb ka kb t)) -> fine a ka /\ fine a kb.
Proof.
  unfold e3_segment_value. intros H.
  destruct a; cbn [pick HermiteE3.vadd vmul vx vy vz] in H; finites; repeat split; assumption.
Qed.
Lemma velocity_fine a ta tb ka kb t : finite (pick a (e3_segment_velocity ta tb ka kb t)) -> fine a ka /\ fine a kb.
Proof.
  unfold e3_segment_velocity. intros H.
  destruct a; cbn [pick HermiteE3.vadd vmul vx vy vz] in H; finites; repeat split; assumption.
Qed.
Lemma acceleration_fine a ta tb ka kb t : finite (pick a (e3_segment_acceleration ta tb ka kb t)) -> fine a ka /\ fine a kb.
Proof.
  unfold e3_segment_acceleration. intros H.
  destruct a; cbn [pick HermiteE3.vadd vmul vx vy vz] in H; finites; repeat split; assumption.
Qed.

(** Coordinates do not mix. *)
Definition alike_at (a : axis) (k k' : knot b64) : Prop := pick a (k_pos k) = pick a (k_pos k') /\ pick a (k_vel k) = pick a (k_vel k').

Lemma value_alike a ta tb ka kb ka' kb' t : alike_at a ka ka' -> alike_at a kb kb' ->
  pick a (e3_segment_value ta tb ka kb t) = pick a (e3_segment_value ta tb ka' kb' t) /\
  pick a (e3_segment_velocity ta tb ka kb t) = pick a (e3_segment_velocity ta tb ka' kb' t) /\
  pick a (e3_segment_acceleration ta tb ka kb t) = pick a (e3_segment_acceleration ta tb ka' kb' t).
Proof.
  intros [A1 A2] [B1 B2]. unfold e3_segment_value, e3_segment_velocity, e3_segment_acceleration.
  destruct a; cbn [pick HermiteE3.vadd vmul vx vy vz] in *; rewrite A1, A2, B1, B2; auto.
Qed.

(** ** The look-up *)

Section Lookup.
Context {C : Type} (m : mgr b64 C).
Hypothesis Hc : consistent m.
Hypothesis Hf : forall n, In n (nodes m) -> finite (n_time n).

Lemma real_order (x y : b64) : finite x -> finite y -> tlt x y = true <-> B2R x < B2R y.
Proof. intros Fx Fy. rewrite <- same_lt by assumption. apply Rltb_lt. Qed.

Lemma lookup_segment l n0 n1 r (t : b64) : nodes m = l ++ n0 :: n1 :: r -> finite t -> B2R (n_time n0) <= B2R t ->
  B2R t < B2R (n_time n1) \/ r = [] /\ B2R t = B2R (n_time n1) -> get_coefficients_at m t = Some (n0, n1).
Proof.
  intros E Ft H0 H1. pose proof (cons_sorted _ Hc) as Sd. rewrite E in Sd, Hf.
  assert (F0 : finite (n_time n0)) by (apply Hf; rewrite in_app_iff; simpl; auto).
  assert (F1 : finite (n_time n1)) by (apply Hf; rewrite in_app_iff; simpl; auto).
  assert (Before : forall n, In n l -> B2R (n_time n) <= B2R t).
  { intros n Hn. apply sorted_around in Sd as [S1 _]. specialize (S1 _ Hn).
    apply real_order in S1; [lra| |exact F0]. apply Hf. rewrite in_app_iff. auto. }
  assert (Eq : forall n : node b64 C, finite (n_time n) -> teq t (n_time n) = true <-> B2R t = B2R (n_time n)).
  { intros n Fn. unfold teq, tequiv. cbn [tnum b64_raw_TimeOps]. rewrite !finite_num by assumption. cbn [negb andb].
    destruct (tlt t (n_time n)) eqn:L1.
    { apply real_order in L1; auto. cbn. split; [discriminate|lra]. }
    destruct (tlt (n_time n) t) eqn:L2.
    { apply real_order in L2; auto. cbn. split; [discriminate|lra]. }
    split; [intros _|auto]. destruct (Rtotal_order (B2R t) (B2R (n_time n))) as [L|[L|L]]; [|exact L|];
      apply real_order in L; auto; congruence. }
  unfold get_coefficients_at. assert (Ee : empty m = false) by (unfold empty; rewrite E; now destruct l). rewrite Ee.
  destruct (teq t (max_time m)) eqn:Et.
  - assert (r = []) as ->.
    { destruct r as [|n2 r] using rev_ind; [reflexivity|]. exfalso. clear IHr.
      assert (F2 : finite (n_time n2)) by (apply Hf; rewrite in_app_iff; simpl; rewrite in_app_iff; simpl; auto 6).
      replace (l ++ n0 :: n1 :: r ++ [n2]) with ((l ++ n0 :: n1 :: r) ++ [n2]) in Sd, E by (now rewrite <- app_assoc).
      rewrite (max_time_app _ _ _ E) in Et. apply (Eq _ F2) in Et.
      apply sorted_around in Sd as [S1 _]. specialize (S1 n1). rewrite in_app_iff in S1. specialize (S1 ltac:(simpl; auto)).
      apply real_order in S1; auto. destruct H1 as [H1|[H1 _]]; [lra|]. destruct r; discriminate. }
    rewrite E. apply last_two_app.
  - assert (H1' : tlt t (n_time n1) = true).
    { apply real_order; auto. destruct H1 as [H1|[-> H1]]; [exact H1|]. exfalso.
      replace (l ++ [n0; n1]) with ((l ++ [n0]) ++ [n1]) in E by (now rewrite <- app_assoc).
      rewrite (max_time_app _ _ _ E) in Et. apply (Eq _ F1) in H1. congruence. }
    rewrite E.
    assert (Not : forall n : node b64 C, finite (n_time n) -> B2R (n_time n) <= B2R t -> tlt t (n_time n) = false).
    { intros n Fn Hn. destruct (tlt t (n_time n)) eqn:L; [|reflexivity]. apply real_order in L; auto. lra. }
    assert (G : forall (l : list (node b64 C)) p, (forall n, In n l -> finite (n_time n) /\ B2R (n_time n) <= B2R t) ->
      bracket_from p (l ++ n0 :: n1 :: r) t = Some (n0, n1)).
    { clear - Not H0 F0 H1'. induction l as [|n l IH]; intros p Hl; cbn [app bracket_from].
      - now rewrite (Not _ F0 H0), H1'.
      - destruct (Hl n ltac:(now left)) as [Fn Ln]. rewrite (Not _ Fn Ln). apply IH. intros; apply Hl. now right. }
    destruct l as [|n l]; cbn [app bracket_upper].
    + rewrite (Not _ F0 H0). cbn [bracket_from]. now rewrite H1'.
    + assert (Hl : forall x : node b64 C, In x (n :: l) -> finite (n_time x) /\ B2R (n_time x) <= B2R t).
      { intros x Hx. split; [apply Hf; rewrite in_app_iff; auto|now apply Before]. }
      destruct (Hl n ltac:(now left)) as [Fn Ln]. rewrite (Not _ Fn Ln). apply G. intros x Hx. apply Hl. now right.
Qed.

Lemma lookup_contents l ta ka tb kb r (t : b64) : contents m = l ++ (ta, ka) :: (tb, kb) :: r -> finite t -> B2R ta <= B2R t ->
  B2R t < B2R tb \/ r = [] /\ B2R t = B2R tb ->
  exists n0 n1, get_coefficients_at m t = Some (n0, n1) /\ n_time n0 = ta /\ n_coef n0 = ka /\ n_time n1 = tb /\ n_coef n1 = kb /\
    finite ta /\ finite tb /\ B2R ta < B2R tb.
Proof.
  intros E Ft H0 H1. unfold contents in E. apply map_eq_app in E as (l' & r1 & En & El & E). apply map_eq_cons in E as (n0 & r2 & -> & E0 & E).
  apply map_eq_cons in E as (n1 & r3 & -> & E1 & Er). apply pair_equal_spec in E0 as [<- <-]. apply pair_equal_spec in E1 as [<- <-].
  exists n0, n1. split; [apply (lookup_segment l' n0 n1 r3)|]; auto.
  { destruct H1 as [H1|[-> H1]]; [now left|right]. now apply map_eq_nil in Er. }
  assert (F0 : finite (n_time n0)) by (apply Hf; rewrite En, in_app_iff; simpl; auto).
  assert (F1 : finite (n_time n1)) by (apply Hf; rewrite En, in_app_iff; simpl; auto).
  repeat (split; [now auto|]).
  pose proof (cons_sorted _ Hc) as Sd. rewrite En in Sd. apply sorted_around in Sd as [_ S2]. specialize (S2 n1 ltac:(now left)).
  now apply real_order in S2.
Qed.

(** The shortcut for a curve of one knot is not taken. *)
Lemma no_shortcut l ta ka tb kb r (t : b64) : contents m = l ++ (ta, ka) :: (tb, kb) :: r -> finite t ->
  neqb (max_time m) t && neqb (min_time m) t = false.
Proof.
  intros E Ft. set (f := fun _ : C => Knot (vzero : vec3 b64) vzero).
  replace (max_time m) with (max_time (mgr_map f m)) by apply map_max_time.
  replace (min_time m) with (min_time (mgr_map f m)) by apply map_min_time.
  apply ends_differ.
  - now apply map_consistent.
  - apply (f_equal (@length _)) in E. unfold contents in E. rewrite map_length, app_length in E. cbn in E.
    unfold size, mgr_map. cbn [nodes]. rewrite map_length. lia.
  - intros x k Hx. unfold contents, mgr_map in Hx. cbn [nodes] in Hx. rewrite map_map in Hx.
    apply in_map_iff in Hx as (n & En & Hn). apply pair_equal_spec in En as [<- _]. now apply Hf.
Qed.
End Lookup.

(** ** C108 on curves *)

(** Value, velocity and acceleration of a curve in three dimensions. *)
Definition results (c : e3_curve b64) (t : b64) (v w q : vec3 b64) : Prop :=
  e3_evaluate c t = Ok (Some v) /\ e3_evaluate_derivative c t 1 = Ok (Some w) /\ e3_evaluate_derivative c t 2 = Ok (Some q).

Definition finite_times {C} (m : mgr b64 C) : Prop := forall t k, In (t, k) (contents m) -> finite t.

Lemma finite_nodes {C} (m : mgr b64 C) : finite_times m -> forall n, In n (nodes m) -> finite (n_time n).
Proof. intros Hf n Hn. apply (Hf _ (n_coef n)). unfold contents. now apply (in_map (fun n => (n_time n, n_coef n))) in Hn. Qed.

Lemma segment_results (c : e3_curve b64) l ta ka tb kb r t : consistent c -> finite_times c ->
  contents c = l ++ (ta, ka) :: (tb, kb) :: r -> finite t -> B2R ta <= B2R t ->
  B2R t < B2R tb \/ r = [] /\ B2R t = B2R tb ->
  results c t (e3_segment_value ta tb ka kb t) (e3_segment_velocity ta tb ka kb t) (e3_segment_acceleration ta tb ka kb t).
Proof.
  intros Hc Hf0 E Ft H0 H1. pose proof (finite_nodes c Hf0) as Hf.
  destruct (lookup_contents c Hc Hf _ _ _ _ _ _ _ E Ft H0 H1) as (n0 & n1 & L & <- & <- & <- & <- & _).
  pose proof (no_shortcut c Hc Hf _ _ _ _ _ _ t E Ft) as N.
  unfold results, e3_evaluate, e3_evaluate_derivative, e3_evaluate_acceleration. cbn [N.eqb Pos.eqb]. rewrite N, L. auto.
Qed.

(** If a coordinate of the value, of the velocity or of the acceleration at a time is finite, that coordinate is finite
    in both knots around the time, in their positions and in their velocities. *)
Theorem C108_knots : forall (c : e3_curve b64) l (ta : b64) ka (tb : b64) kb r (t : b64),
  consistent c -> finite_times c -> contents c = l ++ (ta, ka) :: (tb, kb) :: r -> finite t -> B2R ta <= B2R t ->
  B2R t < B2R tb \/ r = [] /\ B2R t = B2R tb ->
  exists v w q, results c t v w q /\
    forall a, finite (pick a v) \/ finite (pick a w) \/ finite (pick a q) ->
      finite (pick a (k_pos ka)) /\ finite (pick a (k_vel ka)) /\ finite (pick a (k_pos kb)) /\ finite (pick a (k_vel kb)).
Proof.
  intros c l ta ka tb kb r t Hc Hf E Ft H0 H1. do 3 eexists. split; [now apply (segment_results c l ta ka tb kb r t)|].
  intros a [F|[F|F]]; [apply value_fine in F|apply velocity_fine in F|apply acceleration_fine in F];
    destruct F as [[? ?] [? ?]]; auto.
Qed.

(** ** C108 on fits *)

Section Fit.
Variables (ts : list b64) (ps : list (vec3 b64)) (d0 d1 : vec3 b64).
Hypothesis Hl : length ts = length ps.
Hypothesis Hcl : climbing ts.

Lemma climbing_finite (us : list b64) : climbing us -> forall t, In t us -> finite t.
Proof. induction us as [|u us IH]; intros H t; [intros []|]. destruct H as (F & _ & H). intros [<-|Ht]; auto. Qed.

Variable c : e3_curve b64.
Hypothesis Hc : consistent c.
Hypothesis Ec : contents c = combine ts (map (fit_knot ts ps d0 d1) (seq 0 (length ts))).

Lemma fit_times : finite_times c.
Proof. intros t k Hi. rewrite Ec in Hi. apply in_combine_l in Hi. now apply (climbing_finite ts). Qed.

Lemma nth_split2 {A} (l : list A) j x y : nth_error l j = Some x -> nth_error l (S j) = Some y ->
  exists u v, l = u ++ x :: y :: v /\ length u = j.
Proof.
  intros X Y. apply nth_error_split in X as (u & v & -> & Lu). exists u.
  rewrite nth_error_app2, Lu in Y by lia. replace (S j - j)%nat with 1%nat in Y by lia. cbn in Y.
  destruct v as [|z v]; [discriminate|]. cbn in Y. exists v. split; [congruence|exact Lu].
Qed.

Lemma fit_results j t : in_segment ts j t ->
  let at_ (i : nat) := nth i ts tzero in let knot i := fit_knot ts ps d0 d1 i in
  results c t (e3_segment_value (at_ j) (at_ (S j)) (knot j) (knot (S j)) t)
              (e3_segment_velocity (at_ j) (at_ (S j)) (knot j) (knot (S j)) t)
              (e3_segment_acceleration (at_ j) (at_ (S j)) (knot j) (knot (S j)) t).
Proof.
  intros (Ft & L & H0 & H1). cbn zeta.
  assert (X : forall i, (i < length ts)%nat -> nth_error (contents c) i = Some (nth i ts tzero, fit_knot ts ps d0 d1 i)).
  { intros i Li. now apply nth_contents. }
  destruct (nth_split2 _ _ _ _ (X j ltac:(lia)) (X (S j) L)) as (u & v & E & Lu).
  apply (segment_results c u _ _ _ _ v); auto using fit_times.
  destruct H1 as [H1|[L1 H1]]; [now left|right]. split; [|exact H1].
  assert (Lc : length (contents c) = length ts) by (now apply (contents_length ts ps d0 d1)).
  rewrite E, app_length in Lc. cbn in Lc. destruct v; [reflexivity|]. cbn in Lc. lia.
Qed.

Lemma slope_fine a (tA tB : b64) pA pB : finite (pick a (e3_slope tA tB pA pB)) -> finite (pick a pA) /\ finite (pick a pB).
Proof. unfold e3_slope. destruct a; cbn [pick vmul HermiteE3.vsub vx vy vz]; intros F; finites; auto. Qed.
Lemma slope_alike a (tA tB : b64) pA pB pA' pB' : pick a pA = pick a pA' -> pick a pB = pick a pB' ->
  pick a (e3_slope tA tB pA pB) = pick a (e3_slope tA tB pA' pB').
Proof. unfold e3_slope. destruct a; cbn [pick vmul HermiteE3.vsub vx vy vz]; intros -> ->; reflexivity. Qed.

Lemma fit_fine a j : (S j < length ts)%nat -> fine a (fit_knot ts ps d0 d1 j) -> fine a (fit_knot ts ps d0 d1 (S j)) ->
  (forall k, (j <= S k)%nat -> (k <= S (S j))%nat -> (k < length ts)%nat -> finite (pick a (nth k ps vzero))) /\
  (j = 0%nat -> finite (pick a d0)) /\ (S (S j) = length ts -> finite (pick a d1)).
Proof.
  intros L [P0 V0] [P1 V1]. unfold fit_knot in *. cbn [k_pos k_vel] in *. split; [|split].
  - intros k K1 K2 K3. assert (C : (k = S (S j) \/ k = S j \/ k = j \/ S k = j)%nat) by lia.
    destruct C as [-> |[-> |[-> |<-]]]; auto.
    + unfold fit_velocity in V1. destruct (Nat.eqb_spec (S (S j)) (length ts)); [lia|]. now apply slope_fine in V1.
    + unfold fit_velocity in V0. destruct (Nat.eqb_spec (S (S k)) (length ts)); [lia|]. now apply slope_fine in V0.
  - intros ->. exact V0.
  - intros E. unfold fit_velocity in V1. rewrite E, Nat.eqb_refl in V1. exact V1.
Qed.
End Fit.

(** If a coordinate of the value, of the velocity or of the acceleration of a fitted curve on its [j]-th segment is
    finite, that coordinate is finite in the data points [j-1], [j], [j+1] and [j+2], so far as they exist, on the first
    segment in the first derivative given and on the last one in the last derivative given. *)
Theorem C108_fit : forall debug g (c : e3_curve b64) (ts : list b64) (ps : list (vec3 b64)) (d0 d1 : vec3 b64) out,
  consistent c -> e3_size c = 0%nat -> length ts = length ps -> climbing ts -> (g + N.of_nat (length ts) < key_mod)%N ->
  exists g' c' ks, e3_fit_with_derivatives debug g c ts ps d0 d1 out = Ok (g', c', ks) /\
    forall j t, in_segment ts j t -> exists v w q, results c' t v w q /\
      forall a, finite (pick a v) \/ finite (pick a w) \/ finite (pick a q) ->
        (forall k, (j <= S k)%nat -> (k <= S (S j))%nat -> (k < length ts)%nat -> finite (pick a (nth k ps vzero))) /\
        (j = 0%nat -> finite (pick a d0)) /\ (S (S j) = length ts -> finite (pick a d1)).
Proof.
  intros debug g c ts ps d0 d1 out Hc Hz Hl Hcl Hg.
  destruct (e3_fit_b64 debug g c ts ps d0 d1 out Hc Hz Hl Hcl Hg) as (c' & ks & E & Hc' & Ec).
  do 3 eexists. split; [exact E|]. intros j t Hj. pose proof (fit_results ts ps d0 d1 Hl Hcl c' Hc' Ec j t Hj) as R0. cbn zeta in R0.
  do 3 eexists. split; [exact R0|]. intros a F. destruct Hj as (_ & L & _).
  assert (G : fine a (fit_knot ts ps d0 d1 j) /\ fine a (fit_knot ts ps d0 d1 (S j))).
  { destruct F as [F|[F|F]]; [exact (value_fine _ _ _ _ _ _ F)|exact (velocity_fine _ _ _ _ _ _ F)|exact (acceleration_fine _ _ _ _ _ _ F)]. }
  apply fit_fine; [exact Hl|exact L|apply G|apply G].
Qed.

(** One wrong number spoils no more than that: two sets of data which agree in a coordinate of the points [j-1] to
    [j+2], and of the derivatives given if they are used there, whatever they are elsewhere and in the other
    coordinates, give exactly the same double in that coordinate on the [j]-th segment. *)
Theorem C108_contained : forall debug g (c : e3_curve b64) (ts : list b64) (ps ps' : list (vec3 b64)) (d0 d1 d0' d1' : vec3 b64) out,
  consistent c -> e3_size c = 0%nat -> length ts = length ps -> length ts = length ps' -> climbing ts ->
  (g + N.of_nat (length ts) < key_mod)%N ->
  exists g' c1 c2 ks ks', e3_fit_with_derivatives debug g c ts ps d0 d1 out = Ok (g', c1, ks) /\
    e3_fit_with_derivatives debug g c ts ps' d0' d1' out = Ok (g', c2, ks') /\
    forall j t, in_segment ts j t -> exists v w q v' w' q', results c1 t v w q /\ results c2 t v' w' q' /\
      forall a, (forall k, (j <= S k)%nat -> (k <= S (S j))%nat -> pick a (nth k ps vzero) = pick a (nth k ps' vzero)) ->
        (j = 0%nat -> pick a d0 = pick a d0') -> (S (S j) = length ts -> pick a d1 = pick a d1') ->
        pick a v = pick a v' /\ pick a w = pick a w' /\ pick a q = pick a q'.
Proof.
  intros debug g c ts ps ps' d0 d1 d0' d1' out Hc Hz Hl Hl' Hcl Hg.
  destruct (e3_fit_b64 debug g c ts ps d0 d1 out Hc Hz Hl Hcl Hg) as (c1 & ks & E & Hc1 & Ec1).
  destruct (e3_fit_b64 debug g c ts ps' d0' d1' out Hc Hz Hl' Hcl Hg) as (c2 & ks' & E' & Hc2 & Ec2).
  do 5 eexists. split; [exact E|]. split; [exact E'|]. intros j t Hj.
  pose proof (fit_results ts ps d0 d1 Hl Hcl c1 Hc1 Ec1 j t Hj) as R1. cbn zeta in R1.
  pose proof (fit_results ts ps' d0' d1' Hl' Hcl c2 Hc2 Ec2 j t Hj) as R2. cbn zeta in R2.
  do 6 eexists. split; [exact R1|]. split; [exact R2|]. intros a Hp H0 H1. destruct Hj as (_ & L & _).
  apply value_alike; unfold alike_at, fit_knot; cbn [k_pos k_vel]; (split; [apply Hp; lia|]); unfold fit_velocity.
  - destruct j as [|j]; [now apply H0|]. destruct (Nat.eqb_spec (S (S j)) (length ts)); [lia|]. apply slope_alike; apply Hp; lia.
  - destruct (Nat.eqb_spec (S (S j)) (length ts)); [now apply H1|]. apply slope_alike; apply Hp; lia.
Qed.

(** ** C108 on SE3 curves *)

(** Some component is finite. *)
Definition some_vec (v : vec3 b64) : Prop := exists a, finite (pick a v).
Definition some_quat (q : quat b64) : Prop := finite (qw q) \/ finite (qx q) \/ finite (qy q) \/ finite (qz q).
(** The exponential of a vector none of whose components is finite has no finite component. *)
Definition strict_exp (K : kindr b64) : Prop := forall v, some_quat (k_exp K v) -> some_vec v.

Lemma some_mul p q : some_quat (qmul p q) -> finite_quat p /\ finite_quat q.
Proof.
  unfold qmul. intros [F|[F|[F|F]]]; cbn [qw qx qy qz] in F; finites; repeat split; assumption.
Qed.
Lemma some_imag q : some_vec (qimag q) -> some_quat q.
Proof. unfold some_quat. intros [[] F]; cbn in F; auto. Qed.
Lemma some_conj q : finite_quat (qconj q) -> finite_quat q.
Proof. intros (A & B & C & D). cbn in *. apply fin_opp in B, C, D. now repeat split. Qed.
Lemma some_pure v : finite_quat (qpure v) -> finite_vec v.
Proof. intros (A & B & C & D). now repeat split. Qed.
Lemma some_scale s v : some_vec (vscale s v) -> finite s /\ some_vec v.
Proof. intros [a F]; destruct a; cbn [pick vscale vx vy vz] in F; finites; (split; [assumption|]); [exists AX|exists AY|exists AZ]; assumption. Qed.
Lemma some_neg v : some_vec (vneg v) -> some_vec v.
Proof. intros [a F]; destruct a; cbn [pick vneg vx vy vz] in F; apply fin_opp in F; [exists AX|exists AY|exists AZ]; assumption. Qed.
Lemma all_vec v : finite_vec v -> some_vec v.
Proof. intros F. exists AX. apply F. Qed.
Lemma all_quat q : finite_quat q -> some_quat q.
Proof. intros F. left. apply F. Qed.
Lemma some_unrotate q v : some_vec (qunrotate q v) -> finite_quat q /\ finite_vec v.
Proof.
  unfold qunrotate. intros F. apply some_imag, some_mul in F as [F Q]. apply all_quat, some_mul in F as [_ F].
  split; [exact Q|]. now apply some_pure.
Qed.

(** The rotation and the angular velocity of a coefficient are finite. *)
Definition fine_turn (k : pose b64 * twist b64) : Prop := finite_quat (p_rot (fst k)) /\ finite_vec (t_ang (snd k)).

Lemma w1_fine third (k : pose b64 * twist b64) : some_vec (se3_w1 third k) -> fine_turn k.
Proof.
  unfold se3_w1. intros F. apply some_unrotate in F as [Q F]. split; [exact Q|].
  destruct F as (X & Y & Z). cbn [vscale vx vy vz] in X, Y, Z. finites. now repeat split.
Qed.

Lemma rotation_fine K ta tb ka kb t : strict_exp K -> some_quat (se3_segment_rotation K ta tb ka kb t) -> fine_turn ka /\ fine_turn kb.
Proof.
  intros HE F. unfold se3_segment_rotation in F. apply some_mul in F as [F F3]. apply all_quat, some_mul in F as [F F2].
  apply all_quat, some_mul in F as [F F1].
  apply all_quat, HE, some_scale in F1 as [_ F1]. apply all_quat, HE, some_scale in F3 as [_ F3].
  split; eapply w1_fine; eassumption.
Qed.

(** If a coordinate of the position, of the linear velocity or of the linear acceleration at a time is finite, that
    coordinate is finite in both coefficients around the time, in their positions and in their linear velocities.  If
    one component of the orientation or of the angular velocity is finite, both rotations and both angular velocities
    are finite in all components. *)
Theorem C108_se3 : forall (K : kindr b64) (c : se3_curve b64) l (ta : b64) ka (tb : b64) kb r (t : b64),
  consistent (h_mgr c) -> finite_times (h_mgr c) -> contents (h_mgr c) = l ++ (ta, ka) :: (tb, kb) :: r ->
  finite t -> B2R ta <= B2R t -> B2R t < B2R tb \/ r = [] /\ B2R t = B2R tb ->
  exists p w q, se3_evaluate K c t = Ok (Some p) /\ se3_evaluate_derivative K c t 1 = Ok (Some w) /\
    se3_evaluate_acceleration c t = Ok (Some q) /\
    (forall a, finite (pick a (p_pos p)) \/ finite (pick a (t_lin w)) \/ finite (pick a q) ->
       finite (pick a (p_pos (fst ka))) /\ finite (pick a (t_lin (snd ka))) /\
       finite (pick a (p_pos (fst kb))) /\ finite (pick a (t_lin (snd kb)))) /\
    (strict_exp K -> some_quat (p_rot p) \/ some_vec (t_ang w) ->
       finite_quat (p_rot (fst ka)) /\ finite_vec (t_ang (snd ka)) /\
       finite_quat (p_rot (fst kb)) /\ finite_vec (t_ang (snd kb))).
Proof.
  intros K c l ta ka tb kb r t Hc Hf E Ft H0 H1. pose proof (finite_nodes _ Hf) as Hn.
  destruct (lookup_contents _ Hc Hn _ _ _ _ _ _ _ E Ft H0 H1) as (n0 & n1 & L & <- & <- & <- & <- & _).
  pose proof (no_shortcut _ Hc Hn _ _ _ _ _ _ t E Ft) as N.
  assert (Ev : se3_evaluate K c t = Ok (Some (Pose (e3_segment_value (n_time n0) (n_time n1) (e3_knot (n_coef n0)) (e3_knot (n_coef n1)) t)
    (se3_segment_rotation K (n_time n0) (n_time n1) (n_coef n0) (n_coef n1) t)))) by (unfold se3_evaluate; now rewrite N, L).
  do 3 eexists. split; [exact Ev|]. split; [|split].
  - unfold se3_evaluate_derivative. cbn [N.eqb Pos.eqb]. rewrite N, L, Ev. cbn [bind]. reflexivity.
  - unfold se3_evaluate_acceleration. now rewrite L.
  - cbn [p_pos p_rot t_lin t_ang]. split.
    + intros a [F|[F|F]]; [apply value_fine in F|apply velocity_fine in F|apply acceleration_fine in F];
        destruct F as [[? ?] [? ?]]; auto.
    + intros HK F. assert (G : some_quat (se3_segment_rotation K (n_time n0) (n_time n1) (n_coef n0) (n_coef n1) t)).
      { destruct F as [F|F]; [exact F|]. unfold qrotate in F. apply some_imag, some_mul in F as [_ F].
        now apply some_conj, all_quat in F. }
      apply rotation_fine in G; [|exact HK]. destruct G as [[? ?] [? ?]]. auto.
Qed.

(** ** C108 on polynomial splines *)

Lemma inner_fine : forall (l1 l2 : list b64) (x : b64), finite (inner_product l1 l2 x) ->
  finite x /\ (length l1 = length l2 -> forall a, In a l1 -> finite a).
Proof.
  induction l1 as [|a l1 IH]; intros [|b l2] x F; cbn [inner_product] in F.
  - split; [exact F|intros _ a []].
  - split; [exact F|discriminate].
  - split; [exact F|discriminate].
  - apply IH in F as [F G]. finites. split; [assumption|]. intros L y [<-|Hy]; [assumption|]. apply G; auto.
Qed.

(** A spline whose position, velocity or acceleration is finite at a time has finite coefficients only, although the
    velocity does not depend on the constant one and the acceleration on the linear one. *)
Theorem C108_spline : forall (o : nat) (s : spline b64) (t : b64), (1 <= o <= 5)%nat -> length (s_coefs s) = (o + 1)%nat ->
  finite (position_at o s t) \/ finite (velocity_at o s t) \/ finite (acceleration_at o s t) ->
  forall a, In a (s_coefs s) -> finite a.
Proof.
  intros o s t Ho Hl F. unfold position_at, velocity_at, acceleration_at in F.
  assert (L : forall x : b64, length (tau o x) = (o + 1)%nat /\ length (dtau o x) = (o + 1)%nat /\ length (ddtau o x) = (o + 1)%nat).
  { intros x. destruct o as [|[|[|[|[|[|o]]]]]]; try lia; auto. }
  destruct (L (clamp t (s_duration s))) as (L0 & L1 & L2).
  destruct F as [F|[F|F]]; apply inner_fine in F as [_ F]; apply F; congruence.
Qed.

(** ** Examples *)

Definition not_a_number : b64 := B754_nan.
Definition spoilt : list (vec3 b64) :=
  [dvec 1 2 3; dvec 4 0 (-5); V3 (dbl 7) not_a_number (dbl 9); dvec 1 1 1; dvec 0 2 4; dvec 3 3 0].
Definition six : list b64 := [dbl 0; dbl 1; dbl 2; dbl 3; dbl 4; dbl 5].

(** For each axis whether the value and the velocity are finite. *)
Definition which (c : e3_curve b64) (t : b64) : list bool :=
  match e3_evaluate c t, e3_evaluate_derivative c t 1 with
  | Ok (Some v), Ok (Some w) => map is_finite [vx v; vy v; vz v; vx w; vy w; vz w]
  | _, _ => []
  end.

(** The hypotheses hold; the third point spoils its second coordinate from the first knot up to the last but one, and
    there the last segment begins, which is sound. *)
Example C108_example : length six = length spoilt /\ climbing six /\ consistent (@e3_new b64) /\ e3_size (@e3_new b64) = 0%nat /\
  in_segment six 3 (dbl 3) /\ in_segment six 4 (dbl 4) /\
  match e3_fit_with_derivatives true 0 (@e3_new b64) six spoilt (dvec 0 0 0) (dvec 0 0 0) [] with
  | Ok (_, c, _) => map (which c) [dbl 0; dbl 3; dbl 4; dbl 5] =
      [[true; false; true; true; false; true]; [true; false; true; true; false; true];
       [true; true; true; true; true; true]; [true; true; true; true; true; true]]
  | _ => False
  end.
Proof.
  assert (V : forall z, (Z.abs z <= 2 ^ 53)%Z -> B2R (dbl z) = IZR z) by (intros; now apply dbl_value).
  split; [reflexivity|]. split; [cbn [climbing six]; repeat (split; [reflexivity|]); reflexivity|].
  split; [split; constructor|]. split; [reflexivity|]. split; [|split].
  - split; [reflexivity|]. split; [cbn; lia|]. cbn [nth six]. rewrite !V by (vm_compute; discriminate). lra.
  - split; [reflexivity|]. split; [cbn; lia|]. cbn [nth six]. rewrite !V by (vm_compute; discriminate). lra.
  - vm_compute. reflexivity.
Qed.

(** The converse is wrong: finite data may overflow. *)
Definition biggest : b64 := @B754_finite 53 1024 false 9007199254740991 971 eq_refl.
Theorem C108_finite_data_refuted : exists (ts : list b64) (ps : list (vec3 b64)) (d0 d1 : vec3 b64) (t : b64) (g' : N) (c' : e3_curve b64) ks v,
  climbing ts /\ length ts = length ps /\ (forall p, In p ps -> finite_vec p) /\ finite_vec d0 /\ finite_vec d1 /\ finite t /\
  e3_fit_with_derivatives true 0 (@e3_new b64) ts ps d0 d1 [] = Ok (g', c', ks) /\
  e3_evaluate c' t = Ok (Some v) /\ is_finite (vx v) = false.
Proof.
  exists [dbl 0; dbl 8], [dvec 0 0 0; dvec 0 0 0], (V3 biggest (dbl 0) (dbl 0)), (dvec 0 0 0), (dbl 2).
  destruct (e3_fit_b64 true 0 (@e3_new b64) [dbl 0; dbl 8] [dvec 0 0 0; dvec 0 0 0] (V3 biggest (dbl 0) (dbl 0)) (dvec 0 0 0) [])
    as (c' & ks & E & Hc' & Ec).
  { split; constructor. } { reflexivity. } { reflexivity. }
  { cbn [climbing]; repeat (split; [reflexivity|]); reflexivity. } { reflexivity. }
  assert (X : exists v, e3_evaluate c' (dbl 2) = Ok (Some v) /\ is_finite (vx v) = false).
  { eexists. split.
    - apply (fit_results [dbl 0; dbl 8] [dvec 0 0 0; dvec 0 0 0] (V3 biggest (dbl 0) (dbl 0)) (dvec 0 0 0) eq_refl) with (c := c') (j := 0%nat); auto.
      + cbn [climbing]; repeat (split; [reflexivity|]); reflexivity.
      + split; [reflexivity|]. split; [cbn; lia|]. cbn [nth]. rewrite !dbl_real by small. lra.
    - vm_compute. reflexivity. }
  destruct X as (v & Ev & Fv). do 3 eexists. exists v.
  split; [cbn [climbing]; repeat (split; [reflexivity|]); reflexivity|]. split; [reflexivity|].
  split. { intros p [<-|[<-|[]]]; now repeat split. } split; [now repeat split|]. split; [now repeat split|].
  split; [reflexivity|]. split; [exact E|]. auto.
Qed.

(** An exponential as asked for by [C108_se3], a curve with a NaN in the angular velocity of its second coefficient and
    a spline of which the third coefficient is infinite. *)
Definition watchful : kindr b64 :=
  Kindr (fun v : vec3 b64 => if is_finite (vx v) && is_finite (vy v) && is_finite (vz v) then round_quat (qexp (real_vec v))
                  else Quat not_a_number not_a_number not_a_number not_a_number) (fun q => qimag q).

Definition lost : se3_curve b64 :=
  two_se3 (dbl 0) (dbl 8) rest_one (dcoef (dvec 1 2 3) (dvec 0 0 0) (V3 (dbl 0) not_a_number (dbl 0)) (dquat 1 0 0 0)).

Example C108_se3_example : strict_exp watchful /\ consistent (h_mgr lost) /\ finite_times (h_mgr lost) /\
  contents (h_mgr lost) =
    [] ++ (dbl 0, rest_one) :: (dbl 8, dcoef (dvec 1 2 3) (dvec 0 0 0) (V3 (dbl 0) not_a_number (dbl 0)) (dquat 1 0 0 0)) :: [] /\
  B2R (dbl 0) <= B2R (dbl 5) < B2R (dbl 8) /\
  (exists p w, se3_evaluate watchful lost (dbl 5) = Ok (Some p) /\ se3_evaluate_derivative watchful lost (dbl 5) 1 = Ok (Some w) /\
    ~ some_quat (p_rot p) /\ ~ some_vec (t_ang w)) /\
  exists s : spline b64, length (s_coefs s) = 4%nat /\ is_finite (velocity_at 3 s (dbl 1)) = false /\
    map is_finite (s_coefs s) = [true; true; true; false].
Proof.
  assert (HE : strict_exp watchful).
  { intros v. change (k_exp watchful v) with (if is_finite (vx v) && is_finite (vy v) && is_finite (vz v) then round_quat (qexp (real_vec v))
      else Quat not_a_number not_a_number not_a_number not_a_number). destruct (is_finite (vx v)) eqn:F; [intros _; now exists AX|].
    cbn [andb]. intros [G|[G|[G|G]]]; cbn [qw qx qy qz not_a_number is_finite] in G; discriminate G. }
  assert (HC : consistent (h_mgr lost) /\ contents (h_mgr lost) =
    [(dbl 0, rest_one); (dbl 8, dcoef (dvec 1 2 3) (dvec 0 0 0) (V3 (dbl 0) not_a_number (dbl 0)) (dquat 1 0 0 0))])
    by (apply two_se3_consistent; reflexivity).
  destruct HC as [HC HK].
  assert (HT : finite_times (h_mgr lost)).
  { intros t k. rewrite HK. intros [E|[E|[]]]; apply pair_equal_spec in E as [<- _]; reflexivity. }
  assert (HB : B2R (dbl 0) <= B2R (dbl 5) < B2R (dbl 8)) by (rewrite !dbl_real by small; lra).
  split; [exact HE|]. split; [exact HC|]. split; [exact HT|]. split; [exact HK|]. split; [exact HB|]. split.
  - destruct (C108_se3 watchful lost [] _ _ _ _ [] (dbl 5) HC HT HK eq_refl (proj1 HB) (or_introl (proj2 HB)))
      as (p & w & q & Ep & Ew & _ & _ & F).
    exists p, w. split; [exact Ep|]. split; [exact Ew|]. specialize (F HE).
    assert (N : ~ finite_vec (V3 (dbl 0) not_a_number (dbl 0))) by (intros (_ & G & _); discriminate G).
    split; intros G; apply N; apply F; auto.
  - exists (mkSpline (dbl 2) [dbl 1; dbl 2; dbl 3; B754_infinity false]). split; [reflexivity|]. split; vm_compute; reflexivity.
Qed.

Print Assumptions C108_knots.
Print Assumptions C108_fit.
Print Assumptions C108_contained.
Print Assumptions C108_se3.
Print Assumptions C108_spline.
Print Assumptions C108_finite_data_refuted.
