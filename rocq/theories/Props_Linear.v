(** * C129: how far piecewise linear trajectories stray *)

From Coq Require Import List Bool Arith NArith ZArith Reals Lra Lia Psatz.
From Verif Require Import Base Num TimeInst Spline SplineSpec LinSpec SplineProofs
  Container ContainerSpec ContainerProofs SetDataSpec SetDataSys SetDataProofs SetDataExist SetDataTraj SetDataTop
  SetDataUnique SetDataEnergy Props_SetData SplineCurves Props_SplineCurves HermiteE3Proofs ColPiv Props_ColPiv Props_Sampled
  Props_SplineRate Props_SplineDecay Props_SplineNoise.
Import ListNotations.
Local Open Scope R_scope.

(** ** Chords *)

Section Chord.
Variables (a b t p0 p1 e : R) (f : R -> R).
Hypothesis Hab : a < b.
Hypothesis Ht : a <= t <= b.
Local Notation x := ((t - a) / (b - a)).
Local Notation chord := (p0 + x * (p1 - p0)).

Lemma chord_fraction : 0 <= x <= 1 /\ t - a = x * (b - a) /\ b - t = (1 - x) * (b - a) /\ 0 <= x * (1 - x) <= / 4.
Proof.
  assert (E : t - a = x * (b - a)) by (field; lra). assert (E2 : b - t = (1 - x) * (b - a)) by (field; lra).
  assert (X : 0 <= x <= 1) by (split; apply (Rmult_le_reg_r (b - a)); lra).
  split; [exact X|]. split; [exact E|]. split; [exact E2|]. split; [apply Rmult_le_pos; lra|].
  pose proof (Rle_0_sqr (1 - 2 * x)) as Z. unfold Rsqr in Z. lra.
Qed.

Lemma chord_range lo hi : lo <= p0 <= hi -> lo <= p1 <= hi -> lo <= chord <= hi.
Proof.
  intros A B. destruct chord_fraction as (X & _). set (u := x) in *.
  pose proof (Rmult_le_compat_l u _ _ ltac:(lra) (proj1 B)). pose proof (Rmult_le_compat_l u _ _ ltac:(lra) (proj2 B)).
  pose proof (Rmult_le_compat_l (1 - u) _ _ ltac:(lra) (proj1 A)). pose proof (Rmult_le_compat_l (1 - u) _ _ ltac:(lra) (proj2 A)). lra.
Qed.

Hypothesis E0 : Rabs (p0 - f a) <= e.
Hypothesis E1 : Rabs (p1 - f b) <= e.

Lemma chord_error d0 d1 c : Rabs (f a - f t - c * (a - t)) <= d0 -> Rabs (f b - f t - c * (b - t)) <= d1 -> Rabs (chord - f t) <= e + ((1 - x) * d0 + x * d1).
Proof.
  intros A B. destruct chord_fraction as (X & Ea & Eb & _). set (u := x) in *.
  assert (Z : (1 - u) * (a - t) + u * (b - t) = 0) by (rewrite Eb; replace (a - t) with (- (u * (b - a))) by lra; ring).
  replace (p0 + u * (p1 - p0) - f t) with (((1 - u) * (p0 - f a) + u * (p1 - f b)) + ((1 - u) * (f a - f t - c * (a - t)) + u * (f b - f t - c * (b - t))) + c * ((1 - u) * (a - t) + u * (b - t))) by ring.
  rewrite Z, Rmult_0_r, Rplus_0_r. eapply Rle_trans; [apply Rabs_triang|].
  pose proof (Rmult_le_compat_l (1 - u) _ _ ltac:(lra) E0). pose proof (Rmult_le_compat_l u _ _ ltac:(lra) E1).
  pose proof (Rmult_le_compat_l (1 - u) _ _ ltac:(lra) A). pose proof (Rmult_le_compat_l u _ _ ltac:(lra) B).
  apply Rplus_le_compat; (eapply Rle_trans; [apply Rabs_triang|]); rewrite !Rabs_mult, (Rabs_pos_eq (1 - u)), (Rabs_pos_eq u) by lra; lra.
Qed.

Lemma chord_first V h : b - a <= h -> 0 <= V -> steady V f a b -> Rabs (chord - f t) <= e + V * h / 2.
Proof.
  intros Hh PV HV. destruct chord_fraction as (X & Ea & Eb & Q).
  pose proof (HV a t ltac:(lra) ltac:(lra)) as A. pose proof (HV b t ltac:(lra) ltac:(lra)) as B.
  rewrite (Rabs_left1 (a - t)) in A by lra. rewrite (Rabs_pos_eq (b - t)) in B by lra.
  eapply Rle_trans; [apply (chord_error (V * - (a - t)) (V * (b - t)) 0); rewrite Rmult_0_l, Rminus_0_r; assumption|].
  apply Rplus_le_compat_l. set (u := x) in *. replace (- (a - t)) with (u * (b - a)) by lra. rewrite Eb.
  replace ((1 - u) * (V * (u * (b - a))) + u * (V * ((1 - u) * (b - a)))) with (2 * (V * (b - a)) * (u * (1 - u))) by ring.
  pose proof (Rmult_le_compat_l V _ _ PV Hh) as H1. assert (H2 : 0 <= V * (b - a)) by (apply Rmult_le_pos; lra).
  pose proof (Rmult_le_compat_l (2 * (V * (b - a))) _ _ ltac:(lra) (proj2 Q)). lra.
Qed.

Lemma chord_second f1 A h : b - a <= h -> 0 <= A -> derives f f1 a b -> steady A f1 a b -> Rabs (chord - f t) <= e + A * (h * h) / 8.
Proof.
  intros Hh PA D HA. destruct chord_fraction as (X & Ea & Eb & Q).
  assert (T : forall s, a <= s <= b -> Rabs (f s - f t - f1 t * (s - t)) <= A * ((s - t) * (s - t) / 2)).
  { intros s Hs. pose proof (taylor1 f f1 a b (derive_is f f1 a b D) A s t HA Hs Ht) as Z.
    replace (f s - f t - f1 t * (s - t)) with (f s - (f t + f1 t * (s - t) + 0 * ((s - t) * (s - t)))) by ring. exact Z. }
  eapply Rle_trans; [apply (chord_error _ _ (f1 t) (T a ltac:(lra)) (T b ltac:(lra)))|].
  apply Rplus_le_compat_l. set (u := x) in *. replace (a - t) with (- (u * (b - a))) by lra. rewrite Eb.
  match goal with |- ?z <= _ => replace z with (A * ((b - a) * (b - a)) / 2 * (u * (1 - u))) by field end.
  assert (H1 : (b - a) * (b - a) <= h * h) by (apply Rmult_le_compat; lra).
  pose proof (Rmult_le_compat_l A _ _ PA H1) as H2. assert (H3 : 0 <= A * ((b - a) * (b - a))) by (apply Rmult_le_pos; [lra|apply Rmult_le_pos; lra]).
  pose proof (Rmult_le_compat_l (A * ((b - a) * (b - a)) / 2) _ _ ltac:(lra) (proj2 Q)). lra.
Qed.
End Chord.

(** ** C129 *)

Lemma linear_which knots (ys : list R) t : valid_knots knots ys -> nth 0 knots 0 <= t <= nth (length knots - 1) knots 0 ->
  exists i, (i + 1 < length knots)%nat /\ nth i knots 0 <= t <= nth (i + 1) knots 0 /\ nth i knots 0 < nth (i + 1) knots 0 /\
    nth 0 knots 0 <= nth i knots 0 /\ nth (i + 1) knots 0 <= nth (length knots - 1) knots 0.
Proof.
  intros Hv Ht. pose proof Hv as (L2 & Hi & Ly & _). destruct (samples_of knots ys Hi Ly) as (f & E). rewrite <- E in Hv.
  destruct (fit_which knots f Hv t Ht) as (i & Li & Hti). destruct (fit_n knots f Hv) as (En & _). exists i. split; [lia|]. split; [exact Hti|].
  split; [apply Hi; lia|]. split; [apply (fit_range knots f Hv)|apply (fit_range knots f Hv)]; lia.
Qed.

Lemma steady_in A f lo hi a b : steady A f lo hi -> lo <= a -> b <= hi -> steady A f a b.
Proof. intros H X Y s t Hs Ht. apply H; lra. Qed.

Lemma steady_pos A f a b : a < b -> steady A f a b -> 0 <= A.
Proof.
  intros L H. pose proof (H b a ltac:(lra) ltac:(lra)) as Z. rewrite (Rabs_pos_eq (b - a)) in Z by lra.
  apply (Rmult_le_reg_r (b - a)); [lra|]. rewrite Rmult_0_l. eapply Rle_trans; [apply Rabs_pos|exact Z].
Qed.

(** setData without velocities, all orders: the trajectory stays in the range of the samples, and near the motion they are measured from. *)
Theorem C129_positions : forall o (c : container R) knots ys, (1 <= o <= 5)%nat -> valid_knots knots ys ->
  exists r, set_data2 o c knots ys = Ok (true, r) /\
    forall t, nth 0 knots 0 <= t <= nth (length knots - 1) knots 0 -> exists p, get_position_at_time o r (t - nth 0 knots 0) = Ok p /\
      (forall lo hi, (forall y, In y ys -> lo <= y <= hi) -> lo <= p <= hi) /\
      forall f e h, close_data e ys (map f knots) -> spaced h knots ->
        (forall V, steady V f (nth 0 knots 0) (nth (length knots - 1) knots 0) -> Rabs (p - f t) <= e + V * h / 2) /\
        (forall f1 A, derives f f1 (nth 0 knots 0) (nth (length knots - 1) knots 0) -> steady A f1 (nth 0 knots 0) (nth (length knots - 1) knots 0) ->
           Rabs (p - f t) <= e + A * h ^ 2 / 8).
Proof.
  intros o c knots ys Ho Hv. pose proof Hv as (L2 & Hi & Ly & _). destruct (C28_two_arguments o c knots ys Ho Hv) as (r & E & P). exists r. split; [exact E|].
  intros t Ht. destruct (linear_which knots ys t Hv Ht) as (i & Li & Hti & O & B0 & B1). eexists. split; [apply (P i t Li Hti)|]. split.
  - intros lo hi H. apply chord_range; auto; apply H, nth_In; lia.
  - intros f e h [_ Hc] Hh.
    assert (S : forall k, (k < length knots)%nat -> Rabs (nth k ys 0 - f (nth k knots 0)) <= e).
    { intros k Lk. specialize (Hc k ltac:(lia)). rewrite (nth_indep (map f knots) 0 (f 0)), map_nth in Hc by (rewrite map_length; lia). exact Hc. }
    split.
    + intros V HV. assert (HV' : steady V f (nth i knots 0) (nth (i + 1) knots 0)) by (eapply steady_in; eauto).
      apply (chord_first _ _ _ _ _ _ _ O Hti (S i ltac:(lia)) (S (i + 1)%nat ltac:(lia)) V h); [apply Hh; lia|eapply steady_pos; eauto|exact HV'].
    + intros f1 A D HA. assert (HA' : steady A f1 (nth i knots 0) (nth (i + 1) knots 0)) by (eapply steady_in; eauto).
      replace (h ^ 2) with (h * h) by ring. apply (chord_second _ _ _ _ _ _ _ O Hti (S i ltac:(lia)) (S (i + 1)%nat ltac:(lia)) f1); [apply Hh; lia|eapply steady_pos; eauto|eapply derives_in; eauto|exact HA'].
Qed.

(** Orders 1 and 2 fall back to the same trajectory when velocities and accelerations are given as well. *)
Theorem C129_low_orders : forall (solve : solver R) o c knots ys v0 a0 vT aT f V e h, (1 <= o <= 2)%nat -> valid_knots knots ys ->
  close_data e ys (map f knots) -> spaced h knots -> steady V f (nth 0 knots 0) (nth (length knots - 1) knots 0) ->
  exists r, set_data6 solve o c knots ys v0 a0 vT aT = Ok (true, r) /\
    forall t, nth 0 knots 0 <= t <= nth (length knots - 1) knots 0 -> exists p, get_position_at_time o r (t - nth 0 knots 0) = Ok p /\ Rabs (p - f t) <= e + V * h / 2.
Proof.
  intros solve o c knots ys v0 a0 vT aT f V e h Ho Hv Hc Hh HV. pose proof Hv as (Hlen & _ & _ & Hsm).
  destruct (C129_positions o (reset c) knots ys ltac:(lia) Hv) as (r & E & P). exists r. split.
  - now rewrite set_data6_drops, set_data4_drops by lia.
  - intros t Ht. destruct (P t Ht) as (p & A & _ & B). exists p. split; [exact A|]. now apply (B f e h).
Qed.

(** Both bounds are reached, by a detour and by a constant acceleration; measurement errors come on top. *)
Theorem C129_sharp : forall o (c : container R) V A h e, (1 <= o <= 5)%nat -> 0 < h -> 0 <= V -> 0 <= A ->
  let detour t := - (V * Rmin t (h - t)) in let falling t := A / 2 * (t * t) in
  exists r r' p p', valid_knots [0; h] [e; e] /\ set_data2 o c [0; h] [e; e] = Ok (true, r) /\ get_position_at_time o r (h / 2) = Ok p /\ p - detour (h / 2) = e + V * h / 2 /\
    set_data2 o c [0; h] [falling 0 + e; falling h + e] = Ok (true, r') /\ get_position_at_time o r' (h / 2) = Ok p' /\ p' - falling (h / 2) = e + A * h ^ 2 / 8 /\
    detour 0 = 0 /\ detour h = 0 /\ steady V detour 0 h.
Proof.
  intros o c V A h e Ho Ph PV PA detour falling.
  assert (G : forall y z : R, valid_knots [0; h] [y; z]).
  { intros y z. split; [cbn; lia|]. split; [|split; [reflexivity|cbn; lia]]. intros [|i] L; cbn in *; [lra|lia]. }
  destruct (C28_two_arguments o c [0; h] _ Ho (G e e)) as (r & E & P). destruct (C28_two_arguments o c [0; h] _ Ho (G (falling 0 + e) (falling h + e))) as (r' & E' & P').
  specialize (P 0%nat (h / 2) ltac:(cbn; lia) ltac:(cbn; lra)). specialize (P' 0%nat (h / 2) ltac:(cbn; lia) ltac:(cbn; lra)). cbn [nth Nat.add] in P, P'. rewrite Rminus_0_r in P, P'.
  exists r, r'. do 2 eexists. split; [apply G|]. split; [exact E|]. split; [exact P|]. split.
  { unfold detour. rewrite Rmin_left by lra. field. lra. }
  split; [exact E'|]. split; [exact P'|]. split; [unfold falling; field; lra|]. split; [|split].
  - unfold detour. rewrite Rmin_left by lra. ring.
  - unfold detour. rewrite Rmin_right by lra. ring.
  - intros s t Hs Ht. unfold detour. replace (- (V * Rmin s (h - s)) - - (V * Rmin t (h - t))) with (V * (Rmin t (h - t) - Rmin s (h - s))) by ring.
    rewrite Rabs_mult, (Rabs_pos_eq V) by lra. apply Rmult_le_compat_l; [exact PV|].
    unfold Rmin. destruct (Rle_dec t (h - t)), (Rle_dec s (h - s)); unfold Rabs; repeat destruct Rcase_abs; lra.
Qed.

Example C129_example : valid_knots sine_times [0; 1; 1; 1] /\ close_data 1 [0; 1; 1; 1] (map sin sine_times) /\ spaced 1 sine_times /\ derives sin cos 0 2 /\ steady 1 cos 0 2.
Proof.
  destruct C120_example as (_ & A & B & _). split; [exact A|]. split; [exact B|]. split; [apply sine_valid|]. split; [apply sine_derives|exact C113_second_example].
Qed.
