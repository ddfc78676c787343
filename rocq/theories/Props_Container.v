(** * C22 - C25: the spline container, over the reals *)

From Coq Require Import List Reals Lra Lia Bool Arith ZArith.
From Verif Require Import Base Num TimeInst Spline SplineSpec LinSpec SplineProofs
  Container ContainerSpec ContainerProofs.
Import ListNotations.
Local Open Scope R_scope.

(** Evaluate a concrete container over the reals. *)
Ltac Rrun :=
  repeat (cbv -[Rltb Rplus Rmult Ropp Rinv IZR Rdiv Rminus not]; match goal with
  | |- context [Rltb ?a ?b] =>
      first [rewrite (proj2 (Rltb_lt a b)) by lra | rewrite (proj2 (Rltb_ge a b)) by lra]
  end); cbv -[Rltb Rplus Rmult Ropp Rinv IZR Rdiv Rminus not].

(** ** C22 *)

Theorem C22_lookup : forall (c : container R) t off,
  c_splines c <> [] -> positive_durations (c_splines c) ->
  exists n, in_charge (c_splines c) n t /\
    active_index_at c t off = (Z.of_nat n, start (c_splines c) n).
Proof.
  intros c t off Hl Hp. destruct (active_index_spec c t off Hl Hp) as (n & E & Hn). eauto.
Qed.

(** The three parts of the time axis. *)
Theorem C22_cases : forall (c : container R) t off i,
  c_splines c <> [] -> positive_durations (c_splines c) ->
  fst (active_index_at c t off) = Z.of_nat i ->
  (t < 0 -> i = 0%nat) /\
  (total (c_splines c) <= t -> (i + 1)%nat = length (c_splines c)) /\
  (0 <= t < total (c_splines c) -> start (c_splines c) i <= t < start (c_splines c) (i + 1)).
Proof.
  intros c t off i Hl Hp E. destruct (active_index_spec c t off Hl Hp) as (n & En & Hn).
  rewrite En in E. simpl in E. apply Nat2Z.inj in E. subst n. destruct Hn as (A & B & D).
  pose proof (start_mono_le (c_splines c) 0 i Hp ltac:(lia)) as H0. rewrite start_0 in H0.
  pose proof (start_mono_le (c_splines c) (i + 1) (length (c_splines c)) Hp ltac:(lia)) as H1.
  rewrite (start_all _ (length (c_splines c))) in H1 by lia.
  split; [|split]; intros Ht.
  - destruct B as [B|B]; [exact B|lra].
  - destruct D as [D|D]; [lra|exact D].
  - split; [destruct B as [->|B]; [rewrite start_0; lra|exact B]|].
    destruct D as [D|D]; [exact D|]. rewrite (start_all _ (i + 1)) by lia. lra.
Qed.

(** At most one index is in charge, so the two theorems pin the result down. *)
Theorem C22_unique : forall l n m t, positive_durations l -> in_charge l n t -> in_charge l m t -> n = m.
Proof. exact in_charge_unique. Qed.

Theorem C22_empty : forall (c : container R) t off,
  c_splines c = [] -> active_index_at c t off = ((-1)%Z, off).
Proof. intros c t off E. unfold active_index_at. now rewrite E. Qed.

(** ** C23 *)

Theorem C23_at_time : forall o (c : container R) t n s,
  positive_durations (c_splines c) -> countable_splines (c_splines c) ->
  in_charge (c_splines c) n t -> nth_error (c_splines c) n = Some s ->
  get_position_at_time o c t = Ok (position_at o s (t - start (c_splines c) n)) /\
  get_velocity_at_time o c t = Ok (velocity_at o s (t - start (c_splines c) n)) /\
  get_acceleration_at_time o c t = Ok (acceleration_at o s (t - start (c_splines c) n)).
Proof.
  intros o c t n s Hp Hc Hn En. repeat split; apply (get_at_charge _ c t n s Hp Hc Hn En).
Qed.

Theorem C23_outside : forall o (c : container R) t first last,
  positive_durations (c_splines c) -> countable_splines (c_splines c) ->
  nth_error (c_splines c) 0 = Some first ->
  nth_error (c_splines c) (length (c_splines c) - 1) = Some last ->
  (t <= 0 -> get_position_at_time o c t = Ok (position_at o first 0)) /\
  (total (c_splines c) <= t ->
     get_position_at_time o c t = Ok (position_at o last (s_duration last))).
Proof.
  intros o c t first last Hp Hc E0 E1.
  assert (Hl : c_splines c <> []) by (intros E; rewrite E in E0; discriminate).
  assert (Hlen : (0 < length (c_splines c))%nat) by (destruct (c_splines c); simpl; [congruence|lia]).
  split; intros Ht; unfold get_position_at_time.
  - assert (Hch : in_charge (c_splines c) 0 t).
    { split; [lia|]. split; [auto|]. left.
      pose proof (start_mono (c_splines c) 0 (0 + 1) Hp ltac:(lia)) as Hm. rewrite start_0 in Hm. lra. }
    rewrite (get_at_charge _ c t 0 first Hp Hc Hch E0), start_0. f_equal.
    unfold position_at. rewrite !clamp_restrict. now rewrite !restrict_low by lra.
  - pose proof (start_S' _ _ _ E1) as ES. rewrite (start_all _ (_ + 1)) in ES by lia.
    assert (Hp1 : 0 < s_duration last).
    { unfold positive_durations in Hp. rewrite Forall_forall in Hp.
      exact (Hp last (nth_error_In _ _ E1)). }
    assert (Hch : in_charge (c_splines c) (length (c_splines c) - 1) t)
      by (apply last_charge; auto; left; lra).
    rewrite (get_at_charge _ c t _ last Hp Hc Hch E1). f_equal.
    unfold position_at. rewrite !clamp_restrict. now rewrite !restrict_high by lra.
Qed.

Theorem C23_end : forall o (c : container R),
  c_splines c <> [] -> positive_durations (c_splines c) -> countable_splines (c_splines c) ->
  c_duration c = total (c_splines c) ->
  get_end_position o c = get_position_at_time o c (get_container_duration c) /\
  get_end_velocity o c = get_velocity_at_time o c (get_container_duration c) /\
  get_end_acceleration o c = get_acceleration_at_time o c (get_container_duration c).
Proof.
  intros o c Hl Hp Hc Hd.
  assert (Hlen : (0 < length (c_splines c))%nat) by (destruct (c_splines c); simpl; [congruence|lia]).
  destruct (nth_error (c_splines c) (length (c_splines c) - 1)) as [s|] eqn:E1;
    [|apply nth_error_None in E1; lia].
  pose proof (start_S' _ _ _ E1) as ES. rewrite (start_all _ (_ + 1)) in ES by lia.
  assert (Hp1 : 0 < s_duration s).
  { unfold positive_durations in Hp. rewrite Forall_forall in Hp.
    exact (Hp s (nth_error_In _ _ E1)). }
  assert (Hch : in_charge (c_splines c) (length (c_splines c) - 1) (c_duration c))
    by (apply last_charge; auto; left; lra).
  unfold get_end_position, get_end_velocity, get_end_acceleration, get_position_at_time,
    get_velocity_at_time, get_acceleration_at_time, get_container_duration.
  rewrite !(get_at_charge _ c _ _ s Hp Hc Hch E1), !(get_end_last _ c s E1).
  replace (c_duration c - start (c_splines c) (length (c_splines c) - 1)) with (s_duration s) by lra.
  auto.
Qed.

Theorem C23_empty : forall o (c : container R) t, c_splines c = [] ->
  get_position o c = Ok 0 /\ get_velocity o c = Ok 0 /\ get_acceleration o c = Ok 0 /\
  get_position_at_time o c t = Ok 0 /\ get_velocity_at_time o c t = Ok 0 /\
  get_acceleration_at_time o c t = Ok 0 /\
  get_end_position o c = Ok 0 /\ get_end_velocity o c = Ok 0 /\ get_end_acceleration o c = Ok 0.
Proof.
  intros o c t E. unfold get_position_at_time, get_velocity_at_time, get_acceleration_at_time.
  rewrite !(get_at_empty _ c t E).
  unfold get_position, get_velocity, get_acceleration, get_end_position, get_end_velocity,
    get_end_acceleration, get_now, get_end, c_size. rewrite E. simpl. repeat split.
Qed.

(** The duration is the total of the splines added since the last reset, whatever
    was done in between. *)
Theorem C23_duration : forall o ops c,
  (Z.of_nat (length ops) < 2 ^ 31)%Z -> times_set_ok [] ops ->
  exec_ops o c_new ops = Ok c ->
  get_container_duration c = total (splines_after [] ops) /\
  is_empty c = match splines_after [] ops with [] => true | _ => false end.
Proof.
  intros o ops c Hn Ht E.
  destruct (exec_ops_safe o ops c_new) as (c' & E' & _ & Hs); auto.
  { unfold index_ok, c_size. simpl. lia. }
  rewrite E in E'. injection E' as <-. simpl in Hs.
  split.
  - unfold get_container_duration. rewrite <- Hs.
    apply (exec_ops_duration o ops c_new c E). reflexivity.
  - unfold is_empty, c_size. rewrite <- Hs. destruct (c_splines c); reflexivity.
Qed.

(** ** C24 *)

Theorem C24_small_steps : forall o (c : container R) dts,
  c_splines c <> [] -> positive_durations (c_splines c) -> countable_splines (c_splines c) ->
  c_duration c = total (c_splines c) ->
  Forall (fun dt => 0 <= dt /\ Forall (fun s => dt <= s_duration s) (c_splines c)) dts ->
  exists c', advance_all (reset_time c) dts = Ok c' /\ c_splines c' = c_splines c /\
    get_position o c' = get_position_at_time o c' (get_container_time c') /\
    get_velocity o c' = get_velocity_at_time o c' (get_container_time c') /\
    get_acceleration o c' = get_acceleration_at_time o c' (get_container_time c').
Proof.
  intros o c dts Hl Hp Hc Hd Hall.
  destruct (advance_all_stepping dts (reset_time c)) as (c' & E & Hst & Es); auto.
  { apply stepping_initial; auto. }
  exists c'. split; [exact E|]. split; [exact Es|].
  simpl in Es. rewrite <- Es in Hp, Hc.
  repeat split; apply stepping_agrees; auto.
Qed.

(** One more step of the same kind adds to the time and returns true exactly if the
    end was not reached before; otherwise nothing changes. *)
Theorem C24_time : forall (c : container R) dts dt c1,
  c_splines c <> [] -> positive_durations (c_splines c) -> countable_splines (c_splines c) ->
  c_duration c = total (c_splines c) ->
  Forall (fun dt => 0 <= dt /\ Forall (fun s => dt <= s_duration s) (c_splines c)) (dt :: dts) ->
  advance_all (reset_time c) dts = Ok c1 ->
  exists b c2, advance c1 dt = Ok (b, c2) /\
    (b = true <-> get_container_time c1 < total (c_splines c)) /\
    get_container_time c2 = (if b then get_container_time c1 + dt else get_container_time c1).
Proof.
  intros c dts dt c1 Hl Hp Hc Hd Hall E1. inversion Hall as [|? ? [H0 H1] Hr]; subst.
  destruct (advance_all_stepping dts (reset_time c)) as (c' & E & Hst & Es); auto.
  { apply stepping_initial; auto. }
  rewrite E1 in E. injection E as <-. simpl in Es. rewrite <- Es in Hp, Hc, H1 |- *.
  destruct (advance_stepping c1 dt Hp Hc Hst H0 H1) as (b & c2 & E2 & _ & _ & Ht & Hb).
  exists b, c2. auto.
Qed.

(** setContainerTime makes the getters agree at once, whatever the splines and the time. *)
Theorem C24_set_time : forall o (c : container R) t, countable_splines (c_splines c) ->
  let c' := set_container_time c t in
  get_container_time c' = t /\
  get_position o c' = get_position_at_time o c t /\
  get_velocity o c' = get_velocity_at_time o c t /\
  get_acceleration o c' = get_acceleration_at_time o c t.
Proof.
  intros o c t Hc c'. subst c'.
  assert (A : forall f, get_now f (set_container_time c t) = get_at f c t).
  { intros f. unfold set_container_time, get_at, active_index_at.
    destruct (c_splines c) as [|a l] eqn:El.
    - unfold get_now, c_size. reflexivity.
    - rewrite <- El in *. assert (Hl : c_splines c <> []) by congruence.
      pose proof (active_loop_range (c_splines c) 0%Z #0%num t Hl) as Hr.
      destruct (active_loop (c_splines c) 0%Z #0%num t) as [i off]. simpl fst in Hr.
      unfold countable_splines in Hc. unfold get_now, c_size, spline_at. cbn [c_splines c_active c_time c_offset].
      destruct (Z.eqb_spec (Z.of_nat (length (c_splines c))) 0); [lia|].
      unfold to_size_t. rewrite !Z.mod_small by lia.
      destruct (Z.eqb_spec i (Z.of_nat (length (c_splines c)))); [lia|].
      destruct (Z.ltb_spec i 0); [lia|]. reflexivity. }
  split; [|split; [|split]]; try apply A.
  unfold set_container_time. destruct (active_index_at c t (c_offset c)). reflexivity.
Qed.

(** Stepping may also start from any time set by setContainerTime. *)
Theorem C24_set_time_steps : forall o (c : container R) t dts,
  c_splines c <> [] -> positive_durations (c_splines c) -> countable_splines (c_splines c) ->
  c_duration c = total (c_splines c) ->
  Forall (fun dt => 0 <= dt /\ Forall (fun s => dt <= s_duration s) (c_splines c)) dts ->
  exists c', advance_all (set_container_time c t) dts = Ok c' /\ c_splines c' = c_splines c /\
    get_position o c' = get_position_at_time o c' (get_container_time c') /\
    get_velocity o c' = get_velocity_at_time o c' (get_container_time c') /\
    get_acceleration o c' = get_acceleration_at_time o c' (get_container_time c').
Proof.
  intros o c t dts Hl Hp Hc Hd Hall.
  assert (Hs : stepping (set_container_time c t) /\ c_splines (set_container_time c t) = c_splines c).
  { unfold set_container_time. destruct (active_index_spec c t (c_offset c) Hl Hp) as (n & E & Hn).
    rewrite E. split; [|reflexivity]. split; [exact Hd|]. destruct Hn as (Hn & H1 & H2).
    unfold c_size. cbn [c_splines c_active c_time c_offset].
    destruct (Rlt_le_dec t (start (c_splines c) (n + 1))) as [Hlt|Hle].
    - left. exists n. auto.
    - right. destruct H2 as [H2|H2]; [lra|]. split; [right; lia|]. split; [exact Hl|].
      split; [f_equal; lia|]. rewrite (start_all _ (n + 1)) in Hle by lia. exact Hle. }
  destruct Hs as [Hs Es].
  destruct (advance_all_stepping dts (set_container_time c t)) as (c' & E & Hst & Es'); auto; try (rewrite Es; auto).
  exists c'. split; [exact E|]. rewrite Es in Es'. split; [exact Es'|].
  rewrite <- Es' in Hp, Hc. repeat split; apply stepping_agrees; auto.
Qed.

(** Two linear splines of duration 1: from 0 up to 1, then from 1 up to 11. *)
Definition ramp : spline R := spline_of [1; 0] 1.
Definition steep : spline R := spline_of [10; 1] 1.
Definition two : container R := add_spline (add_spline c_new ramp) steep.

Definition agrees_now (o : nat) (c : container R) : Prop :=
  get_position o c = get_position_at_time o c (get_container_time c).

Lemma agrees_now_eq c n s s' : agrees_now 1 c ->
  get_position 1 c = Ok (position_at 1 s' (c_time c - c_offset c)) ->
  positive_durations (c_splines c) -> countable_splines (c_splines c) ->
  in_charge (c_splines c) n (c_time c) -> nth_error (c_splines c) n = Some s ->
  position_at 1 s' (c_time c - c_offset c) = position_at 1 s (c_time c - start (c_splines c) n).
Proof.
  intros A E Hp Hc Hn En. unfold agrees_now, get_container_time in A.
  destruct (C23_at_time 1 c (c_time c) n s Hp Hc Hn En) as [E1 _].
  rewrite E, E1 in A. now injection A.
Qed.

(** One step over more than one spline. *)
Theorem C24_large_step_refuted :
  ~ (forall c dts c', c_splines c <> [] -> positive_durations (c_splines c) ->
       c_duration c = total (c_splines c) -> Forall (fun dt => 0 <= dt) dts ->
       advance_all (reset_time c) dts = Ok c' -> agrees_now 1 c').
Proof.
  intros H. set (c3 := add_spline two (spline_of [0; 50] 1)).
  assert (E : advance_all (reset_time c3) [5/2] = Ok (mkContainer (c_splines c3) (0 + 1) (0 + 5/2) (c_duration c3) 1)).
  { unfold c3. Rrun. reflexivity. }
  assert (A : agrees_now 1 (mkContainer (c_splines c3) (0 + 1) (0 + 5/2) (c_duration c3) 1)).
  { eapply H; [| | | |exact E].
    - discriminate.
    - repeat constructor; cbn; lra.
    - cbn. lra.
    - repeat constructor; lra. }
  unshelve epose proof (agrees_now_eq _ 2 (spline_of [0; 50] 1) steep A eq_refl _ _ _ eq_refl) as B.
  { repeat constructor; cbn; lra. }
  { reflexivity. }
  { split; [cbn; lia|]. split; [right; cbn; lra|right; reflexivity]. }
  revert B. cbn. rewrite !clamp_restrict.
  rewrite (restrict_high (0 + 5/2 - (0 + 1))), Rmax_right, restrict_in by lra. lra.
Qed.

(** A negative step back over the start of the active spline. *)
Theorem C24_negative_step_refuted :
  ~ (forall c dts c', c_splines c <> [] -> positive_durations (c_splines c) ->
       c_duration c = total (c_splines c) ->
       Forall (fun dt => Forall (fun s => dt <= s_duration s) (c_splines c)) dts ->
       advance_all (reset_time c) dts = Ok c' -> agrees_now 1 c').
Proof.
  intros H.
  set (c' := mkContainer (c_splines two) (0 + 1) (0 + 1 + -1/2) (c_duration two) 1).
  assert (E : advance_all (reset_time two) [1; -1/2] = Ok c').
  { assert (E1 : advance (reset_time two) 1 = Ok (true, mkContainer (c_splines two) (0 + 1) (0 + 1) (c_duration two) 1))
      by (Rrun; reflexivity).
    assert (E2 : advance (mkContainer (c_splines two) (0 + 1) (0 + 1) (c_duration two) 1) (-1/2) = Ok (true, c'))
      by (unfold c'; Rrun; reflexivity).
    unfold advance_all. cbn [foldM]. rewrite E1. cbn [bind]. rewrite E2. reflexivity. }
  assert (A : agrees_now 1 c').
  { eapply H; [| | | |exact E].
    - discriminate.
    - repeat constructor; cbn; lra.
    - cbn. lra.
    - repeat constructor; cbn; lra. }
  unshelve epose proof (agrees_now_eq _ 0 (ramp) steep A eq_refl _ _ _ eq_refl) as B.
  { repeat constructor; cbn; lra. }
  { reflexivity. }
  { split; [cbn; lia|]. split; [left; reflexivity|left; cbn; lra]. }
  revert B. cbn. rewrite !clamp_restrict.
  rewrite restrict_low, restrict_in by lra. lra.
Qed.

(** A spline added after the end was reached. *)
Theorem C24_add_after_end_refuted :
  ~ (forall c dts c' s, c_splines c <> [] -> positive_durations (c_splines c) -> 0 < s_duration s ->
       c_duration c = total (c_splines c) ->
       Forall (fun dt => 0 <= dt /\ Forall (fun s => dt <= s_duration s) (c_splines c)) dts ->
       advance_all (reset_time c) dts = Ok c' -> agrees_now 1 (add_spline c' s)).
Proof.
  intros H. set (one := add_spline c_new ramp).
  set (c' := mkContainer (c_splines one) 0 (0 + 3/4 + 3/4) (c_duration one) 1).
  assert (E : advance_all (reset_time one) [3/4; 3/4] = Ok c').
  { assert (E1 : advance (reset_time one) (3/4) = Ok (true, mkContainer (c_splines one) 0 (0 + 3/4) (c_duration one) 0))
      by (unfold one; Rrun; reflexivity).
    assert (E2 : advance (mkContainer (c_splines one) 0 (0 + 3/4) (c_duration one) 0) (3/4) = Ok (true, c'))
      by (unfold c', one; Rrun; reflexivity).
    unfold advance_all. cbn [foldM]. rewrite E1. cbn [bind]. rewrite E2. reflexivity. }
  assert (A : agrees_now 1 (add_spline c' steep)).
  { eapply H; [| | | | |exact E].
    - discriminate.
    - repeat constructor; cbn; lra.
    - cbn. lra.
    - cbn. lra.
    - repeat constructor; cbn; lra. }
  unshelve epose proof (agrees_now_eq _ 1 (steep) steep A eq_refl _ _ _ eq_refl) as B.
  { repeat constructor; cbn; lra. }
  { reflexivity. }
  { split; [cbn; lia|]. split; [right; cbn; lra|right; reflexivity]. }
  revert B. cbn. rewrite !clamp_restrict.
  rewrite (restrict_high (0 + 3/4 + 3/4 - 0)), Rmax_right, restrict_in by lra. lra.
Qed.

(** ** C25 *)

Theorem C25_in_bounds : forall o ops,
  (Z.of_nat (length ops) < 2 ^ 31)%Z -> times_set_ok [] ops ->
  exists c, exec_ops o c_new ops = Ok c.
Proof.
  intros o ops Hn Ht.
  destruct (exec_ops_safe o ops c_new) as (c & E & _); eauto.
  unfold index_ok, c_size. simpl. lia.
Qed.

Theorem C25_empty_set_time_refuted :
  ~ (forall o ops, exists c, exec_ops o c_new ops = Ok c).
Proof.
  intros H. destruct (H 1%nat [OSetTime 0; OAdd ramp; OQuery 0]) as [c E]. discriminate.
Qed.

(** For every time, order and spline: the third call is undefined. *)
Theorem C25_three_calls : forall o t s,
  get_position o (add_spline (set_container_time c_new t) s) = UB.
Proof. reflexivity. Qed.

(** getSpline returns the spline of that number; every other index, negative ones
    included, raises an exception. *)
Theorem C25_get_spline : forall (c : container R) i, (- 2 ^ 31 <= i < 2 ^ 31)%Z -> (c_size c < 2 ^ 63)%Z ->
  (forall s, nth_error (c_splines c) (Z.to_nat i) = Some s -> (0 <= i)%Z -> get_spline c i = Ok s) /\
  ((i < 0 \/ Z.of_nat (length (c_splines c)) <= i)%Z -> get_spline c i = Throw).
Proof.
  intros c i Hi Hs. unfold get_spline, to_size_t, c_size in *. split.
  - intros s E H0. rewrite Z.mod_small by lia. now rewrite E.
  - intros Hr. rewrite (proj2 (nth_error_None _ _)); [reflexivity|].
    destruct (Z.ltb_spec i 0).
    + replace (i mod 2 ^ 64)%Z with (i + 2 ^ 64)%Z; [lia|].
      apply Z.mod_unique with (q := (-1)%Z); lia.
    + rewrite Z.mod_small by lia. lia.
Qed.

(** ** Examples *)

Example C25_get_spline_example : get_spline two 1 = Ok steep /\ get_spline two 2 = Throw /\ get_spline two (-1) = Throw.
Proof.
  split; [|split].
  - apply (C25_get_spline two 1); [lia|reflexivity|reflexivity|lia].
  - apply (C25_get_spline two 2); [lia|reflexivity|right; cbn; lia].
  - apply (C25_get_spline two (-1)); [lia|reflexivity|left; lia].
Qed.

Example two_ok : c_splines two <> [] /\ positive_durations (c_splines two) /\
  countable_splines (c_splines two) /\ c_duration two = total (c_splines two).
Proof.
  split; [discriminate|]. split; [repeat constructor; cbn; lra|]. split; [reflexivity|]. cbn. lra.
Qed.

Example C22_example : in_charge (c_splines two) 1 (3/2) /\
  active_index_at two (3/2) 7 = (1%Z, 0 + 1).
Proof.
  split; [|Rrun; reflexivity].
  split; [cbn; lia|]. split; [right; cbn; lra|right; reflexivity].
Qed.

Example C22_cases_example : fst (active_index_at two (3/2) 7) = Z.of_nat 1.
Proof. Rrun. reflexivity. Qed.

Example C23_example : get_position_at_time 1 two (3/2) = Ok 6 /\ get_end_position 1 two = Ok 11.
Proof.
  split.
  - destruct two_ok as (_ & Hp & Hc & _). destruct C22_example as [Hn _].
    destruct (C23_at_time 1 two (3/2) 1 steep Hp Hc Hn eq_refl) as [-> _].
    cbn. rewrite clamp_restrict, restrict_in by lra. f_equal. lra.
  - cbn. rewrite clamp_restrict, restrict_in by lra. f_equal. lra.
Qed.

Example C24_set_time_example : get_position 1 (set_container_time two (3/2)) = Ok 6.
Proof.
  destruct (C24_set_time 1 two (3/2) eq_refl) as (_ & -> & _). apply C23_example.
Qed.

Example C23_history : let ops := [OAdd ramp; OSetTime 1; OAdvance 1; OQuery 0; OReset; OAdd steep] in
  times_set_ok [] ops /\ splines_after [] ops = [steep].
Proof. cbn. split; [split; [discriminate|exact I]|reflexivity]. Qed.

Example C24_example : Forall (fun dt => 0 <= dt /\ Forall (fun s => dt <= s_duration s) (c_splines two)) [1/2; 3/4; 1; 1/3].
Proof. repeat constructor; cbn; lra. Qed.

Print Assumptions C22_lookup.
Print Assumptions C22_cases.
Print Assumptions C22_unique.
Print Assumptions C22_empty.
Print Assumptions C23_at_time.
Print Assumptions C23_outside.
Print Assumptions C23_end.
Print Assumptions C23_empty.
Print Assumptions C23_duration.
Print Assumptions C24_small_steps.
Print Assumptions C24_time.
Print Assumptions C24_large_step_refuted.
Print Assumptions C24_negative_step_refuted.
Print Assumptions C24_add_after_end_refuted.
Print Assumptions C25_in_bounds.
Print Assumptions C25_empty_set_time_refuted.
Print Assumptions C25_three_calls.
Print Assumptions C24_set_time.
Print Assumptions C24_set_time_steps.
Print Assumptions C25_get_spline.
