(** * C26 - C30: setData of the spline container, over the reals *)

From Coq Require Import List Reals Lra Lia Bool Arith ZArith QArith.
From Verif Require Import Base Num TimeInst Spline SplineSpec LinSpec SplineProofs
  Container ContainerSpec ContainerProofs SetDataSpec SetDataSys SetDataProofs SetDataExist SetDataTraj SetDataTop Props_Container.
Import ListNotations.
Local Open Scope R_scope.

(** ** What the stored segments give *)

Lemma small_diffs knots : (Z.of_nat (length knots) < 2 ^ 29)%Z -> (Z.of_nat (length (diffs knots)) < 2 ^ 31)%Z.
Proof. rewrite diffs_length. lia. Qed.

Lemma met_knots o knots P segs : (1 <= o <= 5)%nat -> valid_knots knots P ->
  segments o (length (diffs knots)) segs -> joined0 o (diffs knots) P segs ->
  interpolates o (holding (splines_of segs (diffs knots))) knots P /\
  get_container_duration (holding (splines_of segs (diffs knots))) =
    nth (length knots - 1) knots 0 - nth 0 knots 0.
Proof.
  intros Ho (Hlen & Hi & LP & Hsm) Hs Hj.
  pose proof (diffs_positive knots Hi) as HD. pose proof (small_diffs knots Hsm) as Hsm'.
  pose proof (diffs_length knots) as LD. split.
  - intros i L. rewrite <- (start_knots segs) by exact L.
    apply knots_met with (P := P); auto; lia.
  - unfold get_container_duration. cbn [c_duration holding].
    rewrite <- (start_all _ (length (diffs knots))) by (unfold splines_of; rewrite map_length, seq_length; lia).
    rewrite LD. apply start_knots. lia.
Qed.

Lemma good_joined0 o D P r s segs : good o (length D) D P r s segs -> joined0 o D P segs.
Proof.
  intros ((A & _) & (B & _) & J). split; [exact A|]. split; [exact B|].
  intros i Hi. apply (J i Hi).
Qed.

Lemma smooth_knots o knots P r s segs : (1 <= o <= 5)%nat -> valid_knots knots P ->
  segments o (length (diffs knots)) segs -> good o (length (diffs knots)) (diffs knots) P r s segs ->
  let c := holding (splines_of segs (diffs knots)) in
  let T := nth (length knots - 1) knots 0 - nth 0 knots 0 in
  velocity_is_derivative o c 0 T /\ acceleration_is_derivative o c 0 T /\ acceleration_continuous o c 0 T.
Proof.
  intros Ho (Hlen & Hi & LP & Hsm) Hs (_ & _ & J) c T.
  pose proof (diffs_positive knots Hi) as HD. pose proof (small_diffs knots Hsm) as Hsm'.
  pose proof (diffs_length knots) as LD. unfold T. rewrite <- (start_knots segs), <- LD by lia.
  apply traj_smooth with (P := P); auto. lia.
Qed.

(** Values at both ends. *)
Lemma end_values o knots P r s segs : (1 <= o <= 5)%nat -> valid_knots knots P ->
  segments o (length (diffs knots)) segs -> good o (length (diffs knots)) (diffs knots) P r s segs ->
  let c := holding (splines_of segs (diffs knots)) in
  let T := nth (length knots - 1) knots 0 - nth 0 knots 0 in
  match r with
  | [] => True
  | v :: r' => get_velocity_at_time o c 0 = Ok v /\
      match r' with [] => True | a :: _ => get_acceleration_at_time o c 0 = Ok a end
  end /\
  match s with
  | [] => True
  | v :: r' => get_velocity_at_time o c T = Ok v /\
      match r' with [] => True | a :: _ => get_acceleration_at_time o c T = Ok a end
  end.
Proof.
  intros Ho (Hlen & Hi & LP & Hsm) Hs (A & B & _) c T.
  pose proof (diffs_positive knots Hi) as HD. pose proof (small_diffs knots Hsm) as Hsm'.
  pose proof (diffs_length knots) as LD.
  assert (Hn : (1 <= length (diffs knots))%nat) by lia.
  assert (H1 : start (splines_of segs (diffs knots)) 0 <= 0 < start (splines_of segs (diffs knots)) (0 + 1)).
  { pose proof (start_lt o (diffs knots) segs Ho Hn HD 0 (0 + 1) ltac:(lia)) as H.
    rewrite start_0 in *. lra. }
  destruct (half_open o (diffs knots) segs Ho Hn Hsm' HD Hs 0 0 ltac:(lia) H1) as (_ & V0 & A0).
  rewrite start_0, Rminus_0_r in V0, A0.
  assert (HT : start (splines_of segs (diffs knots)) (length (diffs knots)) = T)
    by (rewrite LD; apply start_knots; lia).
  destruct (last_end o (diffs knots) segs Ho Hn Hsm' HD Hs T HT) as (_ & VT & AT).
  destruct A as [_ A]. destruct B as [_ B]. unfold c. split.
  - destruct r as [|v r']; [exact I|]. destruct A as [A1 A2]. rewrite V0, A1. split; [reflexivity|].
    destruct r' as [|a r']; [exact I|]. now rewrite A0, A2.
  - destruct s as [|v r']; [exact I|]. destruct B as [A1 A2]. rewrite VT, A1. split; [reflexivity|].
    destruct r' as [|a r']; [exact I|]. now rewrite AT, A2.
Qed.

Lemma ready_holding o knots P segs : (1 <= o <= 5)%nat -> valid_knots knots P ->
  segments o (length (diffs knots)) segs -> ready (holding (splines_of segs (diffs knots))).
Proof.
  intros Ho (Hlen & Hi & LP & Hsm) Hs.
  pose proof (diffs_positive knots Hi) as HD. pose proof (small_diffs knots Hsm) as Hsm'.
  pose proof (diffs_length knots) as LD.
  assert (Hn : (1 <= length (diffs knots))%nat) by lia.
  split; [|split; [|split; [|split; reflexivity]]]; cbn [c_splines holding].
  - intros E. pose proof (traj_length (diffs knots) segs) as L. rewrite E in L. cbn in L. lia.
  - apply (traj_positive o (diffs knots) segs Ho Hn HD).
  - apply (traj_countable (diffs knots) segs Hsm').
Qed.

(** The four argument version, orders 3 to 5. *)
Lemma result4 (solve : solver R) o c knots P v0 vT :
  exact_solver solve -> (3 <= o <= 5)%nat -> valid_knots knots P ->
  exists c', set_data4 solve o c knots P v0 vT = Ok (true, c') /\
    (interpolates o c' knots P /\ ready c') /\ get_container_duration c' = duration_of knots /\
    (velocity_is_derivative o c' 0 (duration_of knots) /\
     acceleration_is_derivative o c' 0 (duration_of knots) /\
     acceleration_continuous o c' 0 (duration_of knots)) /\
    get_velocity_at_time o c' 0 = Ok v0 /\ get_velocity_at_time o c' (duration_of knots) = Ok vT.
Proof.
  intros Hs Ho Hv. destruct (set_data4_stores solve o c knots P v0 vT Hs Ho Hv) as (segs & A & B & E).
  assert (Ho' : (1 <= o <= 5)%nat) by lia.
  exists (holding (splines_of segs (diffs knots))). split; [exact E|].
  destruct (met_knots o knots P segs Ho' Hv A (good_joined0 _ _ _ _ _ _ B)) as [H1 H2].
  destruct (end_values o knots P _ _ segs Ho' Hv A B) as [[H3 _] [H4 _]].
  split; [split; [exact H1|now apply (ready_holding o knots P)]|]. split; [exact H2|]. split; [|split; assumption].
  apply (smooth_knots o knots P _ _ segs Ho' Hv A B).
Qed.

(** The six argument version, order 5 and order 4 with two or more segments. *)
Lemma result6 (solve : solver R) o c knots P v0 a0 vT aT :
  exact_solver solve -> valid_knots knots P -> o = 5%nat \/ (o = 4%nat /\ (3 <= length knots)%nat) ->
  exists c', set_data6 solve o c knots P v0 a0 vT aT = Ok (true, c') /\
    (interpolates o c' knots P /\ ready c') /\ get_container_duration c' = duration_of knots /\
    (velocity_is_derivative o c' 0 (duration_of knots) /\
     acceleration_is_derivative o c' 0 (duration_of knots) /\
     acceleration_continuous o c' 0 (duration_of knots)) /\
    get_velocity_at_time o c' 0 = Ok v0 /\ get_velocity_at_time o c' (duration_of knots) = Ok vT /\
    get_acceleration_at_time o c' 0 = Ok a0 /\ get_acceleration_at_time o c' (duration_of knots) = Ok aT.
Proof.
  intros Hs Hv Ho. destruct (set_data6_stores solve o c knots P v0 a0 vT aT Hs Hv Ho) as (segs & A & B & E).
  assert (Ho' : (1 <= o <= 5)%nat) by lia.
  exists (holding (splines_of segs (diffs knots))). split; [exact E|].
  destruct (met_knots o knots P segs Ho' Hv A (good_joined0 _ _ _ _ _ _ B)) as [H1 H2].
  destruct (end_values o knots P _ _ segs Ho' Hv A B) as [[H3 H5] [H4 H6]].
  split; [split; [exact H1|now apply (ready_holding o knots P)]|]. split; [exact H2|]. split; [|repeat split; assumption].
  apply (smooth_knots o knots P _ _ segs Ho' Hv A B).
Qed.

(** The two argument version. *)
Lemma result2 o (c : container R) knots P : (1 <= o <= 5)%nat -> valid_knots knots P ->
  exists c', set_data2 o c knots P = Ok (true, c') /\
    (interpolates o c' knots P /\ ready c') /\ get_container_duration c' = duration_of knots /\
    piecewise_linear o c' knots P.
Proof.
  intros Ho Hv. exists (holding (splines_of (lines o knots P) (diffs knots))).
  split; [now apply set_data2_stores|].
  pose proof (lines_segments o knots P ltac:(lia)) as Hs.
  pose proof Hv as (Hlen & Hi & LP & Hsm). pose proof (diffs_length knots) as LD.
  pose proof (diffs_positive knots Hi) as HD. pose proof (small_diffs knots Hsm) as Hsm'.
  assert (Hn : forall i, (i < length knots - 1)%nat -> nth i (lines o knots P) [] = line o knots P i)
    by (intros i L; unfold lines; now rewrite nth_map_seq).
  assert (Hend : forall i, (i + 1 < length knots)%nat ->
    poly o (line o knots P i) (nth i (diffs knots) 0) = nth (i + 1) P 0).
  { intros i L. rewrite line_poly, diffs_nth by auto. pose proof (Hi i L). field. lra. }
  assert (Hj : joined0 o (diffs knots) P (lines o knots P)).
  { rewrite <- LD in *. split; [|split].
    - rewrite Hn by lia. rewrite line_poly by auto. lra.
    - rewrite Hn, Hend by lia. f_equal. lia.
    - intros i L. rewrite Hn by lia. rewrite line_poly by auto. lra. }
  destruct (met_knots o knots P _ Ho Hv Hs Hj) as [H1 H2].
  split; [split; [exact H1|now apply (ready_holding o knots P)]|]. split; [exact H2|].
  intros i t L Ht. pose proof (Hi i L) as Hlt.
  destruct (Rlt_or_le t (nth (i + 1) knots 0)) as [Hl|Hr].
  - destruct (half_open o (diffs knots) (lines o knots P) Ho ltac:(lia) Hsm' HD Hs i (t - nth 0 knots 0)) as [-> _].
    + lia.
    + rewrite !start_knots by lia. lra.
    + rewrite start_knots, Hn, line_poly by (auto; lia). f_equal. field. lra.
  - assert (Et : t = nth (i + 1) knots 0) by lra. rewrite Et, (H1 (i + 1)%nat L). f_equal. field. lra.
Qed.

(** ** C26 *)

Theorem C26_six_arguments : forall (solve : solver R) o c knots P v0 a0 vT aT,
  exact_solver solve -> (1 <= o <= 5)%nat -> valid_knots knots P ->
  exists c', set_data6 solve o c knots P v0 a0 vT aT = Ok (true, c') /\
    interpolates o c' knots P /\ get_container_duration c' = duration_of knots.
Proof.
  intros solve o c knots P v0 a0 vT aT Hs Ho Hv. pose proof Hv as (Hlen & _ & _ & Hsm).
  destruct (le_lt_dec o 2) as [H2|H2].
  - rewrite set_data6_drops, set_data4_drops by (auto; lia).
    destruct (result2 o (reset c) knots P Ho Hv) as (c' & E & [A _] & B & _). eauto.
  - destruct (Nat.eq_dec o 5) as [H5|H5].
    + destruct (result6 solve o c knots P v0 a0 vT aT Hs Hv ltac:(auto)) as (c' & E & [A _] & B & _). eauto.
    + destruct (Nat.eq_dec o 4) as [H4|H4].
      * destruct (Nat.eq_dec (length knots) 2) as [L2|L2].
        { rewrite set_data6_drops by (auto; lia).
          destruct (result4 solve o c knots P v0 vT Hs ltac:(lia) Hv) as (c' & E & [A _] & B & _). eauto. }
        { destruct (result6 solve o c knots P v0 a0 vT aT Hs Hv ltac:(right; split; [auto|lia])) as (c' & E & [A _] & B & _). eauto. }
      * rewrite set_data6_drops by (auto; lia).
        destruct (result4 solve o c knots P v0 vT Hs ltac:(lia) Hv) as (c' & E & [A _] & B & _). eauto.
Qed.

Theorem C26_four_arguments : forall (solve : solver R) o c knots P v0 vT,
  exact_solver solve -> (1 <= o <= 5)%nat -> valid_knots knots P ->
  exists c', set_data4 solve o c knots P v0 vT = Ok (true, c') /\
    interpolates o c' knots P /\ get_container_duration c' = duration_of knots.
Proof.
  intros solve o c knots P v0 vT Hs Ho Hv. pose proof Hv as (Hlen & _ & _ & Hsm).
  destruct (le_lt_dec o 2) as [H2|H2].
  - rewrite set_data4_drops by (auto; lia).
    destruct (result2 o (reset c) knots P Ho Hv) as (c' & E & [A _] & B & _). eauto.
  - destruct (result4 solve o c knots P v0 vT Hs ltac:(lia) Hv) as (c' & E & [A _] & B & _). eauto.
Qed.

Theorem C26_two_arguments : forall o (c : container R) knots P,
  (1 <= o <= 5)%nat -> valid_knots knots P ->
  exists c', set_data2 o c knots P = Ok (true, c') /\
    interpolates o c' knots P /\ get_container_duration c' = duration_of knots.
Proof.
  intros o c knots P Ho Hv. destruct (result2 o c knots P Ho Hv) as (c' & E & [A _] & B & _). eauto.
Qed.

(** ** C27 *)

Theorem C27_six_arguments : forall (solve : solver R) o c knots P v0 a0 vT aT,
  exact_solver solve -> (3 <= o <= 5)%nat -> valid_knots knots P ->
  exists c', set_data6 solve o c knots P v0 a0 vT aT = Ok (true, c') /\
    velocity_is_derivative o c' 0 (duration_of knots) /\
    acceleration_is_derivative o c' 0 (duration_of knots) /\
    acceleration_continuous o c' 0 (duration_of knots).
Proof.
  intros solve o c knots P v0 a0 vT aT Hs Ho Hv. pose proof Hv as (Hlen & _ & _ & Hsm).
  assert (Hc : (o = 5%nat \/ (o = 4%nat /\ (3 <= length knots)%nat)) \/
               ((o <= 3)%nat \/ (o = 4%nat /\ length knots = 2%nat))) by lia.
  destruct Hc as [Hc|Hc].
  - destruct (result6 solve o c knots P v0 a0 vT aT Hs Hv Hc) as (c' & E & _ & _ & A & _). eauto.
  - rewrite set_data6_drops by (auto; lia).
    destruct (result4 solve o c knots P v0 vT Hs Ho Hv) as (c' & E & _ & _ & A & _). eauto.
Qed.

Theorem C27_four_arguments : forall (solve : solver R) o c knots P v0 vT,
  exact_solver solve -> (3 <= o <= 5)%nat -> valid_knots knots P ->
  exists c', set_data4 solve o c knots P v0 vT = Ok (true, c') /\
    velocity_is_derivative o c' 0 (duration_of knots) /\
    acceleration_is_derivative o c' 0 (duration_of knots) /\
    acceleration_continuous o c' 0 (duration_of knots).
Proof.
  intros solve o c knots P v0 vT Hs Ho Hv.
  destruct (result4 solve o c knots P v0 vT Hs Ho Hv) as (c' & E & _ & _ & A & _). eauto.
Qed.

(** ** C28 *)

Theorem C28_all_boundary_values : forall (solve : solver R) o c knots P v0 a0 vT aT,
  exact_solver solve -> valid_knots knots P -> o = 5%nat \/ (o = 4%nat /\ (3 <= length knots)%nat) ->
  exists c', set_data6 solve o c knots P v0 a0 vT aT = Ok (true, c') /\
    get_velocity_at_time o c' 0 = Ok v0 /\ get_velocity_at_time o c' (duration_of knots) = Ok vT /\
    get_acceleration_at_time o c' 0 = Ok a0 /\ get_acceleration_at_time o c' (duration_of knots) = Ok aT.
Proof.
  intros solve o c knots P v0 a0 vT aT Hs Hv Ho.
  destruct (result6 solve o c knots P v0 a0 vT aT Hs Hv Ho) as (c' & E & _ & _ & _ & A). eauto.
Qed.

Theorem C28_velocities_only : forall (solve : solver R) o c knots P v0 a0 vT aT,
  exact_solver solve -> valid_knots knots P -> o = 3%nat \/ (o = 4%nat /\ length knots = 2%nat) ->
  exists c', (forall b0 bT, set_data6 solve o c knots P v0 b0 vT bT = set_data6 solve o c knots P v0 a0 vT aT) /\
    set_data6 solve o c knots P v0 a0 vT aT = Ok (true, c') /\
    get_velocity_at_time o c' 0 = Ok v0 /\ get_velocity_at_time o c' (duration_of knots) = Ok vT.
Proof.
  intros solve o c knots P v0 a0 vT aT Hs Hv Ho. pose proof Hv as (Hlen & _ & _ & Hsm).
  destruct (result4 solve o c knots P v0 vT Hs ltac:(lia) Hv) as (c' & E & _ & _ & _ & A).
  exists c'. split.
  - intros b0 bT. now rewrite !set_data6_drops by lia.
  - rewrite set_data6_drops by lia. auto.
Qed.

Theorem C28_linear : forall (solve : solver R) o c knots P v0 a0 vT aT,
  (1 <= o <= 2)%nat -> valid_knots knots P ->
  exists c', (forall w0 b0 wT bT, set_data6 solve o c knots P w0 b0 wT bT = Ok (true, c')) /\
    (forall w0 wT, set_data4 solve o c knots P w0 wT = Ok (true, c')) /\
    set_data6 solve o c knots P v0 a0 vT aT = Ok (true, c') /\
    piecewise_linear o c' knots P.
Proof.
  intros solve o c knots P v0 a0 vT aT Ho Hv. pose proof Hv as (Hlen & _ & _ & Hsm).
  destruct (result2 o (reset c) knots P ltac:(lia) Hv) as (c' & E & _ & _ & A).
  exists c'. split; [|split; [|split]].
  - intros. now rewrite set_data6_drops, set_data4_drops by lia.
  - intros. now rewrite set_data4_drops by lia.
  - now rewrite set_data6_drops, set_data4_drops by lia.
  - exact A.
Qed.

Theorem C28_two_arguments : forall o (c : container R) knots P,
  (1 <= o <= 5)%nat -> valid_knots knots P ->
  exists c', set_data2 o c knots P = Ok (true, c') /\ piecewise_linear o c' knots P.
Proof.
  intros o c knots P Ho Hv. destruct (result2 o c knots P Ho Hv) as (c' & E & _ & _ & A). eauto.
Qed.

(** ** C29 *)

Theorem C29_rejects : forall (solve : solver R) o c knots P v0 a0 vT aT i,
  (3 <= o <= 5)%nat -> (Z.of_nat (length knots) < 2 ^ 29)%Z ->
  (i + 1 < length knots)%nat -> nth (i + 1) knots 0 <= nth i knots 0 ->
  exists c', set_data6 solve o c knots P v0 a0 vT aT = Ok (false, c') /\
    set_data4 solve o c knots P v0 vT = Ok (false, c') /\
    is_empty c' = true /\ get_container_duration c' = 0 /\
    forall t, get_position_at_time o c' t = Ok 0 /\ get_velocity_at_time o c' t = Ok 0 /\
      get_acceleration_at_time o c' t = Ok 0.
Proof.
  intros solve o c knots P v0 a0 vT aT i Ho Hsm Hi Hle. exists (reset c).
  split; [now apply (set_data6_rejects solve o c knots P v0 a0 vT aT i)|].
  split; [now apply (set_data4_rejects solve o c knots P v0 vT i)|].
  split; [reflexivity|]. split; [reflexivity|]. intros t. repeat split.
Qed.

Theorem C29_one_knot : forall (solve : solver R) o c k P v0 a0 vT aT,
  exists c', set_data6 solve o c [k] P v0 a0 vT aT = Ok (false, c') /\
    set_data4 solve o c [k] P v0 vT = Ok (false, c') /\ is_empty c' = true.
Proof. intros. exists (reset c). repeat split. Qed.

(** Orders 1 and 2 and the two argument version return false as well, for all inputs,
    but say nothing about what is left in the container. *)
Theorem C29_linear_rejects : forall (solve : solver R) o c knots P v0 a0 vT aT i,
  (1 <= o <= 5)%nat -> (Z.of_nat (length knots) < 2 ^ 29)%Z -> length P = length knots ->
  (i + 1 < length knots)%nat -> nth (i + 1) knots 0 <= nth i knots 0 ->
  (exists c', set_data2 o c knots P = Ok (false, c')) /\
  ((o <= 2)%nat -> exists c', set_data6 solve o c knots P v0 a0 vT aT = Ok (false, c') /\
                             set_data4 solve o c knots P v0 vT = Ok (false, c')).
Proof.
  intros solve o c knots P v0 a0 vT aT i Ho Hsm LP Hi Hle.
  assert (H : forall c, exists c', set_data2 o c knots P = Ok (false, c')).
  { intros c0. unfold set_data2. destruct (Nat.eqb_spec o 0); [lia|]. cbn [orb].
    destruct (Z.ltb_spec (Z.of_nat (length knots) - 1) 1); [eauto|].
    apply (linear_loop_rejects o knots P LP _ 0 _ i); auto; lia. }
  split; [apply H|]. intros H2.
  destruct (H (reset c)) as [c' E]. exists c'.
  now rewrite set_data6_drops, set_data4_drops by lia.
Qed.

(** The segments before the offending knot stay. *)
Theorem C29_linear_leaves_nothing_refuted : 
  ~ (forall (solve : solver R) o c knots P v0 a0 vT aT c',
       (1 <= o <= 2)%nat -> length P = length knots ->
       set_data6 solve o c knots P v0 a0 vT aT = Ok (false, c') -> is_empty c' = true).
Proof.
  intros H.
  destruct (C29_linear_rejects gauss 1 c_new [0; 1; 1] [5; 6; 7] 0 0 0 0 1) as [_ H2]; cbn; try lia; try lra.
  destruct (H2 ltac:(lia)) as (c' & E & _).
  pose proof (H gauss 1%nat c_new [0; 1; 1] [5; 6; 7] 0 0 0 0 c' ltac:(lia) eq_refl E) as Hc.
  revert E. rewrite set_data6_drops, set_data4_drops by (cbn; lia).
  unfold set_data2. change (Z.to_nat (Z.of_nat (length [0; 1; 1]) - 1)) with 2%nat. cbn. numR.
  rewrite (proj2 (Rltb_lt 0 (1 - 0))) by lra. cbn. numR.
  rewrite (proj2 (Rltb_ge 0 (1 - 1))) by lra. cbn.
  intros E. injection E as <-. discriminate.
Qed.

(** With one knot the two argument version keeps what was there. *)
Theorem C29_two_arguments_keeps : forall o (c : container R) k P,
  set_data2 o c [k] P = Ok (false, c).
Proof. intros. unfold set_data2. cbn. now rewrite orb_true_r. Qed.

(** ** C30 *)

Lemma empty_solve (solve : solver R) o c P ns nj nc dim va0 vaT : (0 < ns)%Z ->
  solve_and_store solve o c [] P ns nj nc dim va0 vaT = UB.
Proof.
  intros Hn. unfold solve_and_store. destruct (Z.to_nat ns) as [|k] eqn:E; [lia|]. reflexivity.
Qed.

Theorem C30_two_arguments : forall o (c : container R) P, set_data2 o c [] P = Ok (false, c).
Proof. intros. unfold set_data2. cbn. now rewrite orb_true_r. Qed.

Theorem C30_four_arguments : forall (solve : solver R) o c P v0 vT,
  ((4 <= o <= 5)%nat -> exists c', set_data4 solve o c [] P v0 vT = Ok (false, c') /\ is_empty c' = true) /\
  ((1 <= o <= 3)%nat -> set_data4 solve o c [] P v0 vT = UB).
Proof.
  intros solve o c P v0 vT. split; intros Ho.
  - exists (reset c). split; [|reflexivity]. orders o; reflexivity.
  - unfold set_data4. cbn [length Z.of_nat].
    replace (u32 (0 - 1)) with 4294967295%Z by reflexivity.
    replace (u32 (4294967295 - 1)) with 4294967294%Z by reflexivity.
    replace (u32 (u32 (4294967294 * 4) + 2 + 2)) with 4294967292%Z by reflexivity.
    replace (4294967295 <? 1)%Z with false by reflexivity.
    replace (u32 (4294967295 * Z.of_nat (o + 1)) <? 4294967292)%Z with false by (orders o; reflexivity).
    apply empty_solve. lia.
Qed.

Theorem C30_six_arguments : forall (solve : solver R) o c P v0 a0 vT aT,
  ((4 <= o <= 5)%nat -> exists c', set_data6 solve o c [] P v0 a0 vT aT = Ok (false, c') /\ is_empty c' = true) /\
  ((1 <= o <= 3)%nat -> set_data6 solve o c [] P v0 a0 vT aT = UB).
Proof.
  intros solve o c P v0 a0 vT aT. split; intros Ho.
  - exists (reset c). split; [|reflexivity]. orders o; reflexivity.
  - unfold set_data6. cbn [length Z.of_nat].
    replace (u32 (0 - 1)) with 4294967295%Z by reflexivity.
    replace (u32 (4294967295 - 1)) with 4294967294%Z by reflexivity.
    replace (u32 (u32 (4294967294 * 4) + 3 + 3)) with 4294967294%Z by reflexivity.
    replace (4294967295 <? 1)%Z with false by reflexivity.
    destruct (u32 (4294967295 * Z.of_nat (o + 1)) <? 4294967294)%Z.
    + apply C30_four_arguments. exact Ho.
    + apply empty_solve. lia.
Qed.

(** ** C52 *)

(** What a user sees of a container that is ready. *)
Definition plays (o : nat) (c : container R) (T p0 pT : R) : Prop :=
  is_empty c = false /\ get_container_time c = 0 /\ get_active_spline_index c = 0%Z /\
  check_container c = true /\
  get_position o c = Ok p0 /\ get_end_position o c = Ok pT /\
  (forall t, t <= 0 -> get_position_at_time o c t = Ok p0) /\
  (forall t, T <= t -> get_position_at_time o c t = Ok pT) /\
  (forall t, exists p v a, get_position_at_time o c t = Ok p /\ get_velocity_at_time o c t = Ok v /\
     get_acceleration_at_time o c t = Ok a) /\
  (forall dts, Forall (fun dt => 0 <= dt /\ Forall (fun s => dt <= s_duration s) (c_splines c)) dts ->
     exists c', advance_all c dts = Ok c' /\
       get_position o c' = get_position_at_time o c (get_container_time c') /\
       get_velocity o c' = get_velocity_at_time o c (get_container_time c') /\
       get_acceleration o c' = get_acceleration_at_time o c (get_container_time c')).

Lemma neq_self (cs : list R) : forallb (fun x => neqb x x) cs = true.
Proof. apply forallb_forall. intros x _. numR. apply Reqb_eq. reflexivity. Qed.

Lemma get_at_splines f (c c' : container R) t : c_splines c' = c_splines c -> get_at f c' t = get_at f c t.
Proof. intros E. unfold get_at, active_index_at, c_size, spline_back, spline_at. now rewrite E. Qed.

Lemma ready_plays o (c : container R) p0 pT : ready c ->
  get_position_at_time o c 0 = Ok p0 -> get_position_at_time o c (get_container_duration c) = Ok pT ->
  plays o c (get_container_duration c) p0 pT.
Proof.
  intros (Hl & Hp & Hc & Hd & Hr) E0 ET.
  assert (Hlen : (0 < length (c_splines c))%nat) by (destruct (c_splines c); cbn; [congruence|lia]).
  assert (Ht : c_time c = 0) by (rewrite <- Hr; reflexivity).
  assert (Ho' : c_offset c = 0) by (rewrite <- Hr; reflexivity).
  assert (Ha : c_active c = 0%Z) by (rewrite <- Hr; reflexivity).
  destruct (nth_error (c_splines c) 0) as [f|] eqn:Ef; [|apply nth_error_None in Ef; lia].
  destruct (nth_error (c_splines c) (length (c_splines c) - 1)) as [l|] eqn:El; [|apply nth_error_None in El; lia].
  destruct (C23_end o c Hl Hp Hc Hd) as (E1 & _ & _).
  assert (Hout := fun t => C23_outside o c t f l Hp Hc Ef El).
  assert (Hpos : 0 <= total (c_splines c)).
  { pose proof (start_mono_le (c_splines c) 0 (length (c_splines c)) Hp ltac:(lia)) as H.
    rewrite start_0, start_all in H by lia. exact H. }
  split; [unfold is_empty, c_size; apply Z.eqb_neq; lia|]. split; [exact Ht|]. split; [exact Ha|].
  split.
  { unfold check_container. rewrite Ht, Ha. unfold get_container_duration in Hd. rewrite Hd. numR.
    rewrite (proj2 (Rltb_ge 0 0)) by lra. rewrite (proj2 (Rltb_ge _ _)) by lra. cbn [Z.ltb Z.compare].
    apply forallb_forall. intros s Hs. rewrite neq_self, andb_true_r. apply negb_true_iff. apply Rltb_ge.
    unfold positive_durations in Hp. rewrite Forall_forall in Hp. specialize (Hp s Hs). lra. }
  split.
  { destruct (C24_small_steps o c [] Hl Hp Hc Hd ltac:(constructor)) as (c' & E & _ & A & _).
    cbn in E. rewrite Hr in E. injection E as <-. rewrite A. unfold get_container_time. now rewrite Ht. }
  split; [now rewrite E1|].
  split; [intros t Hlt; rewrite <- E0; rewrite (proj1 (Hout t) Hlt), (proj1 (Hout 0)) by lra; reflexivity|].
  split.
  { intros t Hge. rewrite <- ET. rewrite (proj2 (Hout t)) by lra. rewrite (proj2 (Hout _)) by lra. reflexivity. }
  split.
  { intros t. destruct (get_at_total (position_at o) c t Hc) as [p Ep].
    destruct (get_at_total (velocity_at o) c t Hc) as [v Ev].
    destruct (get_at_total (acceleration_at o) c t Hc) as [a Ea]. exists p, v, a. auto. }
  intros dts Hdts. destruct (C24_small_steps o c dts Hl Hp Hc Hd Hdts) as (c' & E & Es & A & B & C).
  rewrite Hr in E. exists c'. split; [exact E|]. unfold get_position_at_time, get_velocity_at_time, get_acceleration_at_time in *.
  now rewrite A, B, C, !(get_at_splines _ c c' _ Es).
Qed.

Lemma ready_data_plays o c knots P : valid_knots knots P -> ready c -> interpolates o c knots P ->
  get_container_duration c = duration_of knots ->
  plays o c (duration_of knots) (nth 0 P 0) (nth (length knots - 1) P 0).
Proof.
  intros Hv Hr Hi Hd. pose proof Hv as (Hlen & _). rewrite <- Hd. apply ready_plays; auto.
  - rewrite <- (Hi 0%nat) by lia. f_equal. ring.
  - rewrite Hd. apply (Hi (length knots - 1)%nat). lia.
Qed.

Theorem C52_six_arguments : forall (solve : solver R) o c knots P v0 a0 vT aT,
  exact_solver solve -> (1 <= o <= 5)%nat -> valid_knots knots P ->
  exists c', set_data6 solve o c knots P v0 a0 vT aT = Ok (true, c') /\
    plays o c' (duration_of knots) (nth 0 P 0) (nth (length knots - 1) P 0).
Proof.
  intros solve o c knots P v0 a0 vT aT Hs Ho Hv. pose proof Hv as (Hlen & _ & _ & Hsm).
  assert (Hc : (o = 5%nat \/ (o = 4%nat /\ (3 <= length knots)%nat)) \/
               (o = 3%nat \/ (o = 4%nat /\ length knots = 2%nat)) \/ (o <= 2)%nat) by lia.
  destruct Hc as [Hc|[Hc|Hc]].
  - destruct (result6 solve o c knots P v0 a0 vT aT Hs Hv Hc) as (c' & E & [A F] & B & _).
    exists c'. split; [exact E|]. now apply ready_data_plays.
  - rewrite set_data6_drops by (auto; lia).
    destruct (result4 solve o c knots P v0 vT Hs ltac:(lia) Hv) as (c' & E & [A F] & B & _).
    exists c'. split; [exact E|]. now apply ready_data_plays.
  - rewrite set_data6_drops, set_data4_drops by (auto; lia).
    destruct (result2 o (reset c) knots P Ho Hv) as (c' & E & [A F] & B & _).
    exists c'. split; [exact E|]. now apply ready_data_plays.
Qed.

Theorem C52_four_arguments : forall (solve : solver R) o c knots P v0 vT,
  exact_solver solve -> (1 <= o <= 5)%nat -> valid_knots knots P ->
  exists c', set_data4 solve o c knots P v0 vT = Ok (true, c') /\
    plays o c' (duration_of knots) (nth 0 P 0) (nth (length knots - 1) P 0).
Proof.
  intros solve o c knots P v0 vT Hs Ho Hv. pose proof Hv as (Hlen & _ & _ & Hsm).
  destruct (le_lt_dec o 2) as [H2|H2].
  - rewrite set_data4_drops by (auto; lia).
    destruct (result2 o (reset c) knots P Ho Hv) as (c' & E & [A F] & B & _).
    exists c'. split; [exact E|]. now apply ready_data_plays.
  - destruct (result4 solve o c knots P v0 vT Hs ltac:(lia) Hv) as (c' & E & [A F] & B & _).
    exists c'. split; [exact E|]. now apply ready_data_plays.
Qed.

Theorem C52_two_arguments : forall o (c : container R) knots P,
  (1 <= o <= 5)%nat -> valid_knots knots P ->
  exists c', set_data2 o c knots P = Ok (true, c') /\
    plays o c' (duration_of knots) (nth 0 P 0) (nth (length knots - 1) P 0).
Proof.
  intros o c knots P Ho Hv. destruct (result2 o c knots P Ho Hv) as (c' & E & [A F] & B & _).
  exists c'. split; [exact E|]. now apply ready_data_plays.
Qed.

(** ** Examples *)

Example gauss_is_exact : exact_solver gauss.
Proof. exact gauss_exact. Qed.

Example valid_example : valid_knots [0; 1; 3] [2; 0; 5].
Proof.
  split; [cbn; lia|]. split; [|split; [reflexivity|reflexivity]].
  intros [|[|i]] L; cbn in *; try lra. lia.
Qed.

Example valid_example_two : valid_knots [0; 1] [2; 0].
Proof.
  split; [cbn; lia|]. split; [|split; [reflexivity|reflexivity]].
  intros [|i] L; cbn in *; try lra. lia.
Qed.

Example C29_example : (1 + 1 < length [0; 1; 1])%nat /\ nth (1 + 1) [0; 1; 1] 0 <= nth 1 [0; 1; 1] 0.
Proof. cbn. split; [lia|lra]. Qed.

Print Assumptions C26_six_arguments.
Print Assumptions C26_four_arguments.
Print Assumptions C26_two_arguments.
Print Assumptions C27_six_arguments.
Print Assumptions C27_four_arguments.
Print Assumptions C28_all_boundary_values.
Print Assumptions C28_velocities_only.
Print Assumptions C28_linear.
Print Assumptions C28_two_arguments.
Print Assumptions C29_rejects.
Print Assumptions C29_one_knot.
Print Assumptions C29_linear_rejects.
Print Assumptions C29_linear_leaves_nothing_refuted.
Print Assumptions C29_two_arguments_keeps.
Print Assumptions C30_two_arguments.
Print Assumptions C30_four_arguments.
Print Assumptions C30_six_arguments.
Print Assumptions C52_six_arguments.
Print Assumptions C52_four_arguments.
Print Assumptions C52_two_arguments.
