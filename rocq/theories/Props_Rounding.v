(** * C91: rounding errors of the cubic Hermite E3 curve *)

From Coq Require Import List Bool Arith NArith ZArith Reals Lra Lia Sorting.Sorted.
From Flocq Require Import Core IEEE754.BinarySingleNaN.
From Verif Require Import Base TimeOrder TimeB64 TimeInst KeyGen Manager ManagerSpec ManagerProofs ManagerProofs2
  Num NumB64 HermiteE3 HermiteB64 HermiteErr Props_Binary64.
Import ListNotations.
Local Open Scope R_scope.

(** ** Vocabulary *)

(** The curve over the reals with the same coefficients. *)
Definition real_vec (v : vec3 b64) : vec3 R := V3 (B2R (vx v)) (B2R (vy v)) (B2R (vz v)).
Definition real_knot (k : knot b64) : knot R := Knot (real_vec (k_pos k)) (real_vec (k_vel k)).
Definition real_node (n : node b64 (knot b64)) : node R (knot R) :=
  Node (n_id n) (B2R (n_time n)) (n_key n) (real_knot (n_coef n)).
Definition real_curve (c : e3_curve b64) : e3_curve R := Mgr (map real_node (nodes c)) (index c) (fresh c).

(** Every coordinate is finite and at most [e] away. *)
Definition close (e : R) (v : vec3 b64) (r : vec3 R) : Prop :=
  finite_vec v /\ Rabs (B2R (vx v) - vx r) <= e /\ Rabs (B2R (vy v) - vy r) <= e /\ Rabs (B2R (vz v) - vz r) <= e.

(** The same outcome, with values at most [e] apart. *)
Definition agrees (e : R) (o : outcome (option (vec3 b64))) (o' : outcome (option (vec3 R))) : Prop :=
  match o, o' with
  | Ok (Some v), Ok (Some r) => close e v r
  | Ok None, Ok None => True
  | UB, UB => True
  | _, _ => False
  end.

(** Coordinates are at most [m]. *)
Definition at_most (m : R) (v : vec3 b64) : Prop := each (fun x => Rabs (B2R x) <= m) v.

(** Positions are bounded by [M], segments are at least [D] and at most 2^200 long, and
    along no segment a knot velocity leads farther than [M]. *)
Record tame (M D : R) (c : e3_curve b64) : Prop := {
  tame_bound : moderate M; tame_length : moderate D;
  tame_positions : forall t k, In (t, k) (contents c) -> at_most M (k_pos k);
  tame_segments : forall l ta ka tb kb r, contents c = l ++ (ta, ka) :: (tb, kb) :: r ->
    D <= B2R tb - B2R ta <= bpow radix2 200 /\
    at_most (M / (B2R tb - B2R ta)) (k_vel ka) /\ at_most (M / (B2R tb - B2R ta)) (k_vel kb)
}.

(** ** The look-up *)

Lemma same_lt (x y : b64) : is_finite x = true -> is_finite y = true -> tlt (B2R x) (B2R y) = tlt x y.
Proof.
  intros Fx Fy. pose proof (ltb_val x y _ _ (finite_val _ Fx) (finite_val _ Fy)) as L.
  change (tlt (B2R x) (B2R y)) with (Rltb (B2R x) (B2R y)). change (tlt x y) with (b64_ltb x y).
  apply eq_true_iff_eq. now rewrite Rltb_lt, L.
Qed.

Lemma same_eq (x y : b64) : is_finite x = true -> is_finite y = true -> neqb (B2R x) (B2R y) = neqb x y.
Proof.
  intros Fx Fy. cbn. rewrite Beqb_correct by assumption. destruct (Req_bool_spec (B2R x) (B2R y)) as [E|E].
  - rewrite E. unfold Rltb. destruct (Rlt_dec (B2R y) (B2R y)); [lra|reflexivity].
  - unfold Rltb. destruct (Rlt_dec (B2R x) (B2R y)); [reflexivity|]. destruct (Rlt_dec (B2R y) (B2R x)); [reflexivity|lra].
Qed.

Section Lookup.
Variable c : e3_curve b64.
Hypothesis Hf : forall n, In n (nodes c) -> is_finite (n_time n) = true.

Lemma real_max : max_time (real_curve c) = B2R (max_time c) /\ is_finite (max_time c) = true.
Proof.
  unfold max_time, last_node. cbn [nodes real_curve]. rewrite <- map_rev.
  destruct (rev (nodes c)) as [|n r] eqn:E; [now split|]. split; [reflexivity|]. apply Hf. apply in_rev. rewrite E. now left.
Qed.

Lemma real_min : min_time (real_curve c) = B2R (min_time c) /\ is_finite (min_time c) = true.
Proof.
  unfold min_time. cbn [nodes real_curve]. destruct (nodes c) as [|n r] eqn:E; [now split|].
  split; [reflexivity|]. apply Hf. rewrite ?E. now left.
Qed.

Lemma real_bracket (l : list (node b64 (knot b64))) (t : b64) : is_finite t = true ->
  (forall n, In n l -> is_finite (n_time n) = true) -> forall p,
  bracket_from (real_node p) (map real_node l) (B2R t) =
  option_map (fun ab => (real_node (fst ab), real_node (snd ab))) (bracket_from p l t).
Proof.
  intros Ft. induction l as [|n l IH]; intros Hl p; [reflexivity|]. cbn [map bracket_from n_time real_node].
  rewrite same_lt by (auto; apply Hl; now left). destruct (tlt t (n_time n)); [reflexivity|].
  apply IH. intros x Hx. apply Hl. now right.
Qed.

Lemma finite_num (t : b64) : is_finite t = true -> is_nan t = false.
Proof. now destruct t. Qed.

Lemma real_lookup (t : b64) : is_finite t = true ->
  get_coefficients_at (real_curve c) (B2R t) =
  option_map (fun ab => (real_node (fst ab), real_node (snd ab))) (get_coefficients_at c t).
Proof.
  intros Ft. destruct real_max as [Em Fm]. unfold get_coefficients_at. rewrite Em.
  assert (Ee : empty (real_curve c) = empty c) by (unfold empty; cbn [nodes real_curve]; now destruct (nodes c)).
  assert (Et : teq (B2R t) (B2R (max_time c)) = teq t (max_time c)) 
    by (rewrite teq_def; unfold teq, tequiv; cbn [tnum b64_raw_TimeOps]; rewrite !finite_num, !same_lt by assumption; reflexivity).
  rewrite Ee, Et. destruct (empty c); [reflexivity|]. destruct (teq t (max_time c)).
  - unfold last_two. cbn [nodes real_curve]. rewrite <- map_rev. destruct (rev (nodes c)) as [|x [|y r]]; reflexivity.
  - cbn [nodes real_curve]. destruct (nodes c) as [|n l] eqn:E; [reflexivity|]. cbn [map bracket_upper n_time real_node].
    rewrite ?E in Hf. rewrite same_lt by (auto; apply Hf; now left). destruct (tlt t (n_time n)); [reflexivity|].
    apply real_bracket; [exact Ft|]. intros x Hx. apply Hf. now right.
Qed.

Lemma real_sorted : StronglySorted t_lt (get_times c) -> StronglySorted t_lt (get_times (real_curve c)).
Proof.
  unfold get_times. cbn [nodes real_curve]. rewrite map_map. cbn [n_time real_node].
  assert (G : forall l, (forall n, In n l -> is_finite (n_time n) = true) ->
    StronglySorted t_lt (map (fun n : node b64 (knot b64) => n_time n) l) ->
    StronglySorted t_lt (map (fun n : node b64 (knot b64) => B2R (n_time n)) l)).
  { induction l as [|n l IH]; intros Hl Hs; cbn [map] in *; [constructor|]. apply StronglySorted_inv in Hs as [Hs Ha].
    constructor; [apply IH; auto; intros; apply Hl; now right|]. rewrite Forall_map in *. rewrite Forall_forall in *.
    intros x Hx. specialize (Ha x Hx). unfold t_lt in *. rewrite same_lt; auto; apply Hl; simpl; auto. }
  now apply G.
Qed.

Lemma real_consistent : consistent c -> consistent (real_curve c).
Proof.
  intros [A B F K P]. split.
  - now apply real_sorted.
  - cbn [nodes real_curve]. rewrite map_map. exact B.
  - cbn [nodes real_curve]. rewrite Forall_map. exact F.
  - unfold get_keys in *. cbn [nodes real_curve]. rewrite map_map. exact K.
  - cbn [nodes real_curve index]. rewrite map_map. exact P.
Qed.
End Lookup.

(** ** One segment *)

Lemma near_close x a k e s : near x a k s -> k * bpow radix2 (-53) * s <= e -> is_finite x = true /\ Rabs (B2R x - a) <= e.
Proof. intros [F H] He. split; [exact F|lra]. Qed.

Section Segment.
Variables (M : R) (ta tb t : b64) (ka kb : knot b64).
Let D := B2R tb - B2R ta.
Let x := (B2R t - B2R ta) / D.
Hypothesis HM : moderate M.
Hypothesis HD : moderate D.
Hypothesis Fa : is_finite ta = true.
Hypothesis Fb : is_finite tb = true.
Hypothesis Ft : is_finite t = true.
Hypothesis Ht : B2R ta <= B2R t <= B2R tb.
Hypothesis Ka : finite_knot ka.
Hypothesis Kb : finite_knot kb.
Hypothesis Pa : at_most M (k_pos ka).
Hypothesis Pb : at_most M (k_pos kb).
Hypothesis Va : at_most (M / D) (k_vel ka).
Hypothesis Vb : at_most (M / D) (k_vel kb).

Let PD : 0 < D := moderate_pos D HD.

Lemma seg_x : 0 <= x <= 1.
Proof.
  unfold x. split.
  - apply Rmult_le_pos; [lra|]. left. now apply Rinv_0_lt_compat.
  - apply Rmult_le_reg_r with D; [exact PD|]. unfold Rdiv. rewrite Rmult_assoc, Rinv_l by lra. unfold D. lra.
Qed.
Lemma seg_alpha : near (ndiv (nsub t ta) (nsub tb ta)) x (33 / 10) 1.
Proof. apply near_alpha; try (now apply finite_val); auto. now apply moderate_middling. Qed.
Lemma seg_dt : near (nsub tb ta) D (11 / 10) D.
Proof. apply near_length; try (now apply finite_val). now apply moderate_middling. Qed.
Lemma seg_inv : near (ndiv (nofZ 1) (nsub tb ta)) (/ D) (22 / 10) (/ D).
Proof.
  apply near_inverse; try (now apply finite_val); [now apply moderate_middling|].
  now apply moderate_middling, moderate_inv.
Qed.

Lemma slow v : Rabs v <= M / D -> Rabs v * D <= M.
Proof.
  intros H. apply Rle_trans with (M / D * D); [apply Rmult_le_compat_r; lra|]. right. field. lra.
Qed.

Lemma bits (k : Z) : (0 <= k)%Z -> IZR (2 ^ k) * bpow radix2 (-53) = bpow radix2 (k - 53).
Proof. intros Hk. change (IZR (2 ^ k)) with (IZR (radix2 ^ k)). rewrite IZR_Zpower by exact Hk. rewrite <- bpow_plus. f_equal. Qed.
Lemma bits8 : 256 * bpow radix2 (-53) = bpow radix2 (-45).
Proof. exact (bits 8 ltac:(lia)). Qed.
Lemma bits9 : 512 * bpow radix2 (-53) = bpow radix2 (-44).
Proof. exact (bits 9 ltac:(lia)). Qed.

Lemma segment_value_close :
  close (bpow radix2 (-45) * M) (e3_segment_value ta tb ka kb t)
    (e3_segment_value (B2R ta) (B2R tb) (real_knot ka) (real_knot kb) (B2R t)).
Proof.
  rewrite segment_blend. destruct Ka as [(A1 & A2 & A3) (A4 & A5 & A6)], Kb as [(B1 & B2 & B3) (B4 & B5 & B6)].
  destruct Pa as (P1 & P2 & P3), Pb as (P4 & P5 & P6), Va as (V1 & V2 & V3), Vb as (V4 & V5 & V6).
  assert (X : forall pa va pb vb, is_finite pa = true -> is_finite va = true -> is_finite pb = true -> is_finite vb = true ->
    Rabs (B2R pa) <= M -> Rabs (B2R va) <= M / D -> Rabs (B2R pb) <= M -> Rabs (B2R vb) <= M / D ->
    is_finite (blend (ndiv (nsub t ta) (nsub tb ta)) (nsub tb ta) pa va pb vb) = true /\
    Rabs (B2R (blend (ndiv (nsub t ta) (nsub tb ta)) (nsub tb ta) pa va pb vb) -
      exact_value D x pa va pb vb) <= bpow radix2 (-45) * M).
  { intros pa va pb vb H1 H2 H3 H4 H5 H6 H7 H8.
    apply (near_close _ _ 256 _ M).
    - eapply blend_error; eauto using seg_x, seg_alpha, seg_dt, seg_inv, slow.
    - rewrite bits8. right. reflexivity. }
  unfold close, finite_vec, each. cbv zeta. cbn [vx vy vz].
  pose proof (X _ _ _ _ A1 A4 B1 B4 P1 V1 P4 V4) as [X1 X2]. pose proof (X _ _ _ _ A2 A5 B2 B5 P2 V2 P5 V5) as [Y1 Y2].
  pose proof (X _ _ _ _ A3 A6 B3 B6 P3 V3 P6 V6) as [Z1 Z2].
  repeat split; assumption.
Qed.

Lemma segment_velocity_close :
  close (bpow radix2 (-45) * (M / D)) (e3_segment_velocity ta tb ka kb t)
    (e3_segment_velocity (B2R ta) (B2R tb) (real_knot ka) (real_knot kb) (B2R t)).
Proof.
  rewrite segment_dblend. destruct Ka as [(A1 & A2 & A3) (A4 & A5 & A6)], Kb as [(B1 & B2 & B3) (B4 & B5 & B6)].
  destruct Pa as (P1 & P2 & P3), Pb as (P4 & P5 & P6), Va as (V1 & V2 & V3), Vb as (V4 & V5 & V6).
  assert (X : forall pa va pb vb, is_finite pa = true -> is_finite va = true -> is_finite pb = true -> is_finite vb = true ->
    Rabs (B2R pa) <= M -> Rabs (B2R va) <= M / D -> Rabs (B2R pb) <= M -> Rabs (B2R vb) <= M / D ->
    is_finite (dblend (ndiv (nsub t ta) (nsub tb ta)) (ndiv (nofZ 1) (nsub tb ta)) pa va pb vb) = true /\
    Rabs (B2R (dblend (ndiv (nsub t ta) (nsub tb ta)) (ndiv (nofZ 1) (nsub tb ta)) pa va pb vb) -
      (B2R pa * (6 * (x * x - x) * (1 / D)) + B2R va * (3 * (x * x) - 4 * x + 1) +
       B2R pb * (6 * (x - x * x) * (1 / D)) + B2R vb * (3 * (x * x) - 2 * x))) <= bpow radix2 (-45) * (M / D)).
  { intros pa va pb vb H1 H2 H3 H4 H5 H6 H7 H8.
    replace (1 / D) with (/ D) by (field; lra).
    apply (near_close _ _ 256 _ (M * / D)).
    - eapply dblend_error; eauto using seg_x, seg_alpha, seg_dt, seg_inv, slow.
    - rewrite bits8. right. reflexivity. }
  unfold close, finite_vec, each. cbv zeta. cbn [vx vy vz].
  pose proof (X _ _ _ _ A1 A4 B1 B4 P1 V1 P4 V4) as [X1 X2]. pose proof (X _ _ _ _ A2 A5 B2 B5 P2 V2 P5 V5) as [Y1 Y2].
  pose proof (X _ _ _ _ A3 A6 B3 B6 P3 V3 P6 V6) as [Z1 Z2].
  repeat split; assumption.
Qed.

Lemma segment_acceleration_close :
  close (bpow radix2 (-44) * (M / (D * D))) (e3_segment_acceleration ta tb ka kb t)
    (e3_segment_acceleration (B2R ta) (B2R tb) (real_knot ka) (real_knot kb) (B2R t)).
Proof.
  rewrite segment_ddblend. destruct Ka as [(A1 & A2 & A3) (A4 & A5 & A6)], Kb as [(B1 & B2 & B3) (B4 & B5 & B6)].
  destruct Pa as (P1 & P2 & P3), Pb as (P4 & P5 & P6), Va as (V1 & V2 & V3), Vb as (V4 & V5 & V6).
  assert (X : forall pa va pb vb, is_finite pa = true -> is_finite va = true -> is_finite pb = true -> is_finite vb = true ->
    Rabs (B2R pa) <= M -> Rabs (B2R va) <= M / D -> Rabs (B2R pb) <= M -> Rabs (B2R vb) <= M / D ->
    is_finite (ddblend (ndiv (nsub t ta) (nsub tb ta)) (ndiv (nofZ 1) (nsub tb ta)) pa va pb vb) = true /\
    Rabs (B2R (ddblend (ndiv (nsub t ta) (nsub tb ta)) (ndiv (nofZ 1) (nsub tb ta)) pa va pb vb) -
      (B2R pa * (6 * (2 * x - 1) * (1 / D)) * (1 / D) + B2R va * ((6 * x - 4) * (1 / D)) +
       B2R pb * (6 * (1 - 2 * x) * (1 / D)) * (1 / D) + B2R vb * ((6 * x - 2) * (1 / D)))) <= bpow radix2 (-44) * (M / (D * D))).
  { intros pa va pb vb H1 H2 H3 H4 H5 H6 H7 H8.
    replace (1 / D) with (/ D) by (field; lra). replace (M / (D * D)) with (M * / D * / D) by (field; lra).
    apply (near_close _ _ 512 _ (M * / D * / D)).
    - eapply ddblend_error; eauto using seg_x, seg_alpha, seg_dt, seg_inv, slow.
    - rewrite bits9. right. reflexivity. }
  unfold close, finite_vec, each. cbv zeta. cbn [vx vy vz].
  pose proof (X _ _ _ _ A1 A4 B1 B4 P1 V1 P4 V4) as [X1 X2]. pose proof (X _ _ _ _ A2 A5 B2 B5 P2 V2 P5 V5) as [Y1 Y2].
  pose proof (X _ _ _ _ A3 A6 B3 B6 P3 V3 P6 V6) as [Z1 Z2].
  repeat split; assumption.
Qed.
End Segment.

(** ** C91 *)

Lemma tame_moderate M D c l ta ka tb kb r : tame M D c -> contents c = l ++ (ta, ka) :: (tb, kb) :: r ->
  moderate (B2R tb - B2R ta).
Proof.
  intros T E. destruct (tame_segments _ _ _ T _ _ _ _ _ _ E) as [[S1 S2] _].
  destruct (tame_length _ _ _ T) as [L1 _]. split; lra.
Qed.

Lemma close_weaken e e' v r : close e v r -> e <= e' -> close e' v r.
Proof. intros (F & A & B & C) H. split; [exact F|]. repeat split; lra. Qed.

(** The segment that is found, in both curves. *)
Lemma both_lookup (c : e3_curve b64) (t : b64) : consistent c -> finite_curve c -> is_finite t = true ->
  (get_coefficients_at c t = None /\ get_coefficients_at (real_curve c) (B2R t) = None) \/
  exists n0 n1 l r, get_coefficients_at c t = Some (n0, n1) /\
    get_coefficients_at (real_curve c) (B2R t) = Some (real_node n0, real_node n1) /\
    contents c = l ++ (n_time n0, n_coef n0) :: (n_time n1, n_coef n1) :: r /\
    is_finite (n_time n0) = true /\ is_finite (n_time n1) = true /\ finite_knot (n_coef n0) /\ finite_knot (n_coef n1) /\
    B2R (n_time n0) <= B2R t <= B2R (n_time n1).
Proof.
  intros Hc Hf Ft.
  assert (Fn : forall n, In n (nodes c) -> is_finite (n_time n) = true /\ finite_knot (n_coef n)).
  { intros n Hn. apply Hf. unfold contents. now apply (in_map (fun n => (n_time n, n_coef n))) in Hn. }
  assert (Fn' : forall n, In n (nodes c) -> is_finite (n_time n) = true) by (intros n Hn; now apply Fn).
  pose proof (real_lookup c Fn' t Ft) as L. pose proof (real_consistent c Fn' Hc) as Rc.
  destruct (get_coefficients_at c t) as [[n0 n1]|] eqn:E; cbn [option_map fst snd] in L; [right|left; now split].
  destruct (get_at_some _ _ _ _ Rc L) as (a & b & En & H0 & H1). cbn [nodes real_curve] in En.
  destruct (finite_lift c) as [m Em]; [intros; eapply Hf; eassumption|].
  assert (Cut : exists l r, nodes c = l ++ n0 :: n1 :: r).
  { unfold get_coefficients_at in E. destruct (empty c); [discriminate|]. destruct (teq t (max_time c)).
    - unfold last_two in E. destruct (rev (nodes c)) as [|x [|y q]] eqn:Er; try discriminate. injection E as <- <-.
      exists (rev q), []. rewrite <- (rev_involutive (nodes c)), Er. cbn [rev]. now rewrite <- !app_assoc.
    - unfold bracket_upper in E. destruct (nodes c) as [|n q]; [discriminate|]. destruct (tlt t (n_time n)); [discriminate|].
      clear - E. revert n E. induction q as [|n' q IH]; intros n E; [discriminate|]. cbn [bracket_from] in E.
      destruct (tlt t (n_time n')).
      + injection E as <- <-. now exists [], q.
      + destruct (IH _ E) as (l & r & ->). now exists (n :: l), r. }
  destruct Cut as (l & r & Ec).
  assert (I0 : In n0 (nodes c)) by (rewrite Ec, in_app_iff; simpl; auto).
  assert (I1 : In n1 (nodes c)) by (rewrite Ec, in_app_iff; simpl; auto).
  exists n0, n1, (map (fun n => (n_time n, n_coef n)) l), (map (fun n => (n_time n, n_coef n)) r).
  split; [reflexivity|]. split; [exact L|]. split; [unfold contents; rewrite Ec, map_app; reflexivity|].
  destruct (Fn n0 I0) as [F0 K0], (Fn n1 I1) as [F1 K1]. repeat (split; [assumption|]).
  split.
  - rewrite tle_def in H0. apply negb_true_iff in H0.
    change (Rltb (B2R t) (B2R (n_time n0)) = false) in H0. now apply Rltb_ge in H0.
  - destruct H1 as [H1|[_ H1]].
    + change (Rltb (B2R t) (B2R (n_time n1)) = true) in H1. apply Rltb_lt in H1. lra.
    + rewrite teq_def in H1. apply andb_true_iff in H1 as [_ H1]. apply negb_true_iff in H1.
      change (Rltb (B2R (n_time n1)) (B2R t) = false) in H1. now apply Rltb_ge in H1.
Qed.

Lemma both_first (c : e3_curve b64) : finite_curve c ->
  (first_coefficient c = UB /\ first_coefficient (real_curve c) = UB) \/
  exists t k, In (t, k) (contents c) /\ first_coefficient c = Ok k /\ first_coefficient (real_curve c) = Ok (real_knot k).
Proof.
  intros Hf. unfold first_coefficient. cbn [nodes real_curve]. unfold contents. destruct (nodes c) as [|n l].
  - left. now split.
  - right. exists (n_time n), (n_coef n). repeat split. now left.
Qed.

Lemma same_close (e : R) (v : vec3 b64) : 0 <= e -> finite_vec v -> close e v (real_vec v).
Proof.
  intros He Fv. split; [exact Fv|]. unfold real_vec. cbn [vx vy vz]. rewrite !Rminus_diag_eq, Rabs_R0 by reflexivity. lra.
Qed.

Lemma both_ends (c : e3_curve b64) (t : b64) : finite_curve c -> is_finite t = true ->
  neqb (max_time (real_curve c)) (B2R t) && neqb (min_time (real_curve c)) (B2R t) =
  neqb (max_time c) t && neqb (min_time c) t.
Proof.
  intros Hf Ft.
  assert (Fn : forall n, In n (nodes c) -> is_finite (n_time n) = true).
  { intros n Hn. apply (Hf _ (n_coef n)). unfold contents. now apply (in_map (fun n => (n_time n, n_coef n))) in Hn. }
  destruct (real_max c Fn) as [-> F1], (real_min c Fn) as [-> F2]. now rewrite !same_eq.
Qed.

Lemma bound_pos k M : moderate M -> 0 <= bpow radix2 k * M.
Proof. intros HM. apply Rmult_le_pos; [apply bpow_ge_0|]. left. now apply moderate_pos. Qed.

(** Evaluating in double precision gives the value of the exact curve up to 2^-45 of
    the size of the data, and fails exactly where the exact curve does. *)
Theorem C91_position : forall (c : e3_curve b64) (M D : R) (t : b64),
  consistent c -> finite_curve c -> tame M D c -> is_finite t = true ->
  agrees (bpow radix2 (-45) * M) (e3_evaluate c t) (e3_evaluate (real_curve c) (B2R t)).
Proof.
  intros c M D t Hc Hf T Ft. pose proof (tame_bound _ _ _ T) as HM. unfold e3_evaluate. rewrite both_ends by assumption.
  destruct (neqb (max_time c) t && neqb (min_time c) t).
  - destruct (both_first c Hf) as [[-> ->]|(t0 & k & Hi & -> & ->)]; [exact I|]. cbn [bind agrees].
    apply same_close; [now apply bound_pos|]. apply (Hf _ _ Hi).
  - destruct (both_lookup c t Hc Hf Ft) as [[-> ->]|(n0 & n1 & l & r & -> & -> & E & F0 & F1 & K0 & K1 & Ht)]; [exact I|].
    cbn [agrees n_time n_coef real_node]. destruct (tame_segments _ _ _ T _ _ _ _ _ _ E) as (_ & V0 & V1).
    apply segment_value_close; auto; [exact (tame_moderate _ _ _ _ _ _ _ _ _ T E)|..];
      eapply (tame_positions _ _ _ T); rewrite E, in_app_iff; simpl; eauto.
Qed.

Lemma shorter M D d : moderate M -> moderate D -> D <= d -> M / d <= M / D.
Proof.
  intros HM HD H. pose proof (moderate_pos _ HM). pose proof (moderate_pos _ HD). unfold Rdiv.
  apply Rmult_le_compat_l; [lra|]. now apply Rinv_le.
Qed.

(** The velocity, up to 2^-45 of the size of the data over the length of the shortest segment. *)
Theorem C91_velocity : forall (c : e3_curve b64) (M D : R) (t : b64),
  consistent c -> finite_curve c -> tame M D c -> is_finite t = true ->
  agrees (bpow radix2 (-45) * (M / D)) (e3_evaluate_derivative c t 1) (e3_evaluate_derivative (real_curve c) (B2R t) 1).
Proof.
  intros c M D t Hc Hf T Ft. pose proof (tame_bound _ _ _ T) as HM. pose proof (tame_length _ _ _ T) as HD.
  unfold e3_evaluate_derivative. cbn [N.eqb Pos.eqb]. rewrite both_ends by assumption.
  destruct (neqb (max_time c) t && neqb (min_time c) t).
  - destruct (both_first c Hf) as [[-> ->]|(t0 & k & Hi & -> & ->)]; [exact I|]. cbn [bind agrees].
    apply same_close; [|apply (Hf _ _ Hi)]. apply Rmult_le_pos; [apply bpow_ge_0|]. apply Rmult_le_pos.
    + left. now apply moderate_pos.
    + left. apply Rinv_0_lt_compat. now apply moderate_pos.
  - destruct (both_lookup c t Hc Hf Ft) as [[-> ->]|(n0 & n1 & l & r & -> & -> & E & F0 & F1 & K0 & K1 & Ht)]; [exact I|].
    cbn [agrees n_time n_coef real_node]. destruct (tame_segments _ _ _ T _ _ _ _ _ _ E) as ([S0 _] & V0 & V1).
    eapply close_weaken; [apply segment_velocity_close with (M := M); auto; [exact (tame_moderate _ _ _ _ _ _ _ _ _ T E)|..];
      eapply (tame_positions _ _ _ T); rewrite E, in_app_iff; simpl; eauto|].
    apply Rmult_le_compat_l; [apply bpow_ge_0|]. now apply shorter.
Qed.

(** The acceleration, up to 2^-44 of the size of the data over the square of that length. *)
Theorem C91_acceleration : forall (c : e3_curve b64) (M D : R) (t : b64),
  consistent c -> finite_curve c -> tame M D c -> is_finite t = true ->
  agrees (bpow radix2 (-44) * (M / (D * D))) (e3_evaluate_derivative c t 2) (e3_evaluate_derivative (real_curve c) (B2R t) 2).
Proof.
  intros c M D t Hc Hf T Ft. pose proof (tame_bound _ _ _ T) as HM. pose proof (tame_length _ _ _ T) as HD.
  unfold e3_evaluate_derivative. cbn [N.eqb Pos.eqb]. unfold e3_evaluate_acceleration.
  destruct (both_lookup c t Hc Hf Ft) as [[-> ->]|(n0 & n1 & l & r & -> & -> & E & F0 & F1 & K0 & K1 & Ht)]; [exact I|].
  cbn [agrees n_time n_coef real_node]. destruct (tame_segments _ _ _ T _ _ _ _ _ _ E) as ([S0 _] & V0 & V1).
  eapply close_weaken; [apply segment_acceleration_close with (M := M); auto; [exact (tame_moderate _ _ _ _ _ _ _ _ _ T E)|..];
    eapply (tame_positions _ _ _ T); rewrite E, in_app_iff; simpl; eauto|].
  apply Rmult_le_compat_l; [apply bpow_ge_0|]. pose proof (moderate_pos _ HM). pose proof (moderate_pos _ HD). unfold Rdiv.
  apply Rmult_le_compat_l; [lra|]. apply Rinv_le; [now apply Rmult_lt_0_compat|]. apply Rmult_le_compat; lra.
Qed.

(** The hypotheses hold for a curve from time 0 to 3 between the positions -20 and 7. *)
Definition knot_l : knot b64 := Knot (dvec (-20) 7 1) (dvec 0 0 0).
Definition knot_r : knot b64 := Knot (dvec 7 (-20) 2) (dvec 0 0 0).
Definition curve_lr : e3_curve b64 :=
  Mgr [Node 0%nat (dbl 0) 1%N knot_l; Node 1%nat (dbl 3) 2%N knot_r] [(1%N, 0%nat); (2%N, 1%nat)] 2%nat.

Lemma dbl_value z : (Z.abs z <= 2 ^ 53)%Z -> is_finite (dbl z) = true /\ B2R (dbl z) = IZR z.
Proof. exact (val_int z). Qed.

Lemma dvec_at_most M x y z : (Z.abs x <= 2 ^ 53)%Z -> (Z.abs y <= 2 ^ 53)%Z -> (Z.abs z <= 2 ^ 53)%Z ->
  Rabs (IZR x) <= M -> Rabs (IZR y) <= M -> Rabs (IZR z) <= M -> at_most M (dvec x y z).
Proof.
  intros Bx By Bz Hx Hy Hz. unfold at_most, each, dvec. cbn [vx vy vz].
  rewrite (proj2 (dbl_value x Bx)), (proj2 (dbl_value y By)), (proj2 (dbl_value z Bz)). auto.
Qed.

Lemma moderate_small s : 1 <= s <= 1024 -> moderate s.
Proof.
  intros Hs. split.
  - apply Rle_trans with (bpow radix2 0); [apply bpow_le; lia|simpl; lra].
  - apply Rle_trans with (bpow radix2 10); [simpl; lra|apply bpow_le; lia].
Qed.

Example C91_example : consistent curve_lr /\ finite_curve curve_lr /\ tame 20 3 curve_lr.
Proof.
  destruct (two_curve (dbl 0) (dbl 3) knot_l knot_r) as [Hc Ec]; [reflexivity|]. change (contents curve_lr = [(dbl 0, knot_l); (dbl 3, knot_r)]) in Ec.
  split; [exact Hc|]. split; [apply (two_knots _ _ _ _ _ Ec); vm_compute; intuition|].
  split; [apply moderate_small; lra|apply moderate_small; lra|..].
  - intros t k Hi. rewrite Ec in Hi. destruct Hi as [Hi|[Hi|[]]]; injection Hi as <- <-;
      apply dvec_at_most; try (vm_compute; discriminate); unfold Rabs; destruct Rcase_abs; lra.
  - intros l ta ka tb kb r E. rewrite Ec in E. apply two_split in E as [[= -> ->] [= -> ->]].
    rewrite (proj2 (dbl_value 0 ltac:(vm_compute; discriminate))), (proj2 (dbl_value 3 ltac:(vm_compute; discriminate))).
    split; [split; [lra|apply Rle_trans with (bpow radix2 2); [simpl; lra|apply bpow_le; lia]]|].
    split; apply dvec_at_most; try (vm_compute; discriminate); rewrite Rabs_R0; lra.
Qed.

(** The error cannot be bounded by a multiple of the exact value: here that is 0, and
    the computed value is not. *)
Theorem C91_relative_refuted : exists (c : e3_curve b64) (M D : R) (t : b64) (v : vec3 b64) (r : vec3 R),
  consistent c /\ finite_curve c /\ tame M D c /\ is_finite t = true /\
  e3_evaluate c t = Ok (Some v) /\ e3_evaluate (real_curve c) (B2R t) = Ok (Some r) /\
  vx r = 0 /\ B2R (vx v) <> 0.
Proof.
  destruct C91_example as (Hc & Hf & Ht). exists curve_lr, 20, 3, (dbl 2).
  pose proof (C91_position curve_lr 20 3 (dbl 2) Hc Hf Ht eq_refl) as A.
  assert (Ev : e3_evaluate curve_lr (dbl 2) = Ok (Some (e3_segment_value (dbl 0) (dbl 3) knot_l knot_r (dbl 2)))) by reflexivity.
  assert (Er : e3_evaluate (real_curve curve_lr) (B2R (dbl 2)) =
    Ok (Some (e3_segment_value (B2R (dbl 0)) (B2R (dbl 3)) (real_knot knot_l) (real_knot knot_r) (B2R (dbl 2))))).
  { unfold e3_evaluate. rewrite both_ends by auto. rewrite real_lookup; [|intros n Hn; apply (Hf _ (n_coef n));
      unfold contents; now apply (in_map (fun n => (n_time n, n_coef n))) in Hn|reflexivity]. reflexivity. }
  eexists _, _. split; [exact Hc|]. split; [exact Hf|]. split; [exact Ht|]. split; [reflexivity|].
  split; [exact Ev|]. split; [exact Er|]. split.
  - unfold e3_segment_value. cbn -[dbl B2R Rdiv].
    rewrite (proj2 (dbl_value 0 ltac:(vm_compute; discriminate))), (proj2 (dbl_value 3 ltac:(vm_compute; discriminate))),
      (proj2 (dbl_value 2 ltac:(vm_compute; discriminate))), (proj2 (dbl_value (-20) ltac:(vm_compute; discriminate))),
      (proj2 (dbl_value 7 ltac:(vm_compute; discriminate))). field.
  - intros X. assert (F : is_finite (vx (e3_segment_value (dbl 0) (dbl 3) knot_l knot_r (dbl 2))) = true) by (vm_compute; reflexivity).
    pose proof (same_eq _ (dbl 0) F eq_refl) as Q. rewrite X, (proj2 (dbl_value 0 ltac:(vm_compute; discriminate))) in Q.
    rewrite (proj2 (Reqb_eq 0 0) eq_refl) in Q. vm_compute in Q. discriminate Q.
Qed.

Print Assumptions C91_position.
Print Assumptions C91_velocity.
Print Assumptions C91_acceleration.
Print Assumptions C91_relative_refuted.
