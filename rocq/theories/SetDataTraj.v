(** * Trajectories made of joined segments, and the three versions of setData *)

From Coq Require Import List Reals Lra Lia Bool Arith ZArith.
From Coquelicot Require Import Coquelicot.
From Verif Require Import Base Num TimeInst Spline SplineSpec LinSpec SplineProofs
  Container ContainerSpec ContainerProofs SetDataSpec SetDataSys SetDataProofs SetDataExist.
Import ListNotations.
Local Open Scope R_scope.

(** ** Gluing *)

Lemma glue_derivative (f g1 g2 : R -> R) t l d : 0 < d ->
  (forall x, t - d < x <= t -> f x = g1 x) -> (forall x, t <= x < t + d -> f x = g2 x) ->
  derivable_pt_lim g1 t l -> derivable_pt_lim g2 t l -> derivable_pt_lim f t l.
Proof.
  intros Hd H1 H2 D1 D2 eps He. destruct (D1 eps He) as [d1 K1]. destruct (D2 eps He) as [d2 K2].
  assert (Hm : 0 < Rmin d (Rmin d1 d2)).
  { apply Rmin_glb_lt; [lra|]. apply Rmin_glb_lt; apply cond_pos. }
  exists (mkposreal _ Hm). intros h Hh Hb. simpl in Hb.
  pose proof (Rmin_l d (Rmin d1 d2)). pose proof (Rmin_r d (Rmin d1 d2)).
  pose proof (Rmin_l d1 d2). pose proof (Rmin_r d1 d2).
  destruct (Rle_or_lt h 0) as [Hs|Hs].
  - rewrite Rabs_left1 in Hb by lra. rewrite !H1 by lra. apply K1; auto. rewrite Rabs_left1; lra.
  - rewrite Rabs_pos_eq in Hb by lra. rewrite !H2 by lra. apply K2; auto. rewrite Rabs_pos_eq; lra.
Qed.

Lemma glue_continuity (f g1 g2 : R -> R) t d : 0 < d ->
  (forall x, t - d < x <= t -> f x = g1 x) -> (forall x, t <= x < t + d -> f x = g2 x) ->
  continuity_pt g1 t -> continuity_pt g2 t -> continuity_pt f t.
Proof.
  intros Hd H1 H2 C1 C2 eps He. destruct (C1 eps He) as [d1 [P1 K1]]. destruct (C2 eps He) as [d2 [P2 K2]].
  assert (Hm : 0 < Rmin d (Rmin d1 d2)) by (apply Rmin_glb_lt; [lra|]; apply Rmin_glb_lt; lra).
  exists (Rmin d (Rmin d1 d2)). split; [exact Hm|].
  intros x [Hx Hb]. simpl in *. unfold R_dist in *.
  pose proof (Rmin_l d (Rmin d1 d2)). pose proof (Rmin_r d (Rmin d1 d2)).
  pose proof (Rmin_l d1 d2). pose proof (Rmin_r d1 d2).
  destruct (Rle_or_lt x t) as [Hs|Hs].
  - rewrite Rabs_left1 in Hb by lra. rewrite !H1 by lra. apply K1. split; auto. rewrite Rabs_left1; lra.
  - rewrite Rabs_pos_eq in Hb by lra. rewrite !H2 by lra. apply K2. split; auto. rewrite Rabs_pos_eq; lra.
Qed.

Lemma glue_right (f g : R -> R) t l d : 0 < d -> (forall x, t <= x < t + d -> f x = g x) ->
  derivable_pt_lim g t l -> right_derivative f t l.
Proof.
  intros Hd H D eps He. destruct (D eps He) as [d1 K].
  exists (Rmin d d1). split; [apply Rmin_glb_lt; [lra|apply cond_pos]|].
  intros h Hh. pose proof (Rmin_l d d1). pose proof (Rmin_r d d1).
  rewrite !H by lra. apply K; [lra|]. rewrite Rabs_pos_eq; lra.
Qed.

Lemma glue_left (f g : R -> R) t l d : 0 < d -> (forall x, t - d < x <= t -> f x = g x) ->
  derivable_pt_lim g t l -> left_derivative f t l.
Proof.
  intros Hd H D eps He. destruct (D eps He) as [d1 K].
  exists (Rmin d d1). split; [apply Rmin_glb_lt; [lra|apply cond_pos]|].
  intros h Hh. pose proof (Rmin_l d d1). pose proof (Rmin_r d d1).
  rewrite !H by lra.
  specialize (K (- h) ltac:(lra) ltac:(rewrite Rabs_Ropp, Rabs_pos_eq; lra)).
  replace ((g t - g (t - h)) / h) with ((g (t + - h) - g t) / - h); [exact K|].
  replace (t - h) with (t + - h) by ring. field. lra.
Qed.

Lemma shift_derive (f : R -> R) s t l : is_derive f (t - s) l -> derivable_pt_lim (fun x => f (x - s)) t l.
Proof.
  intros H. apply is_derive_Reals.
  replace l with (scal 1 l) by (unfold scal; simpl; unfold mult; simpl; ring).
  apply (is_derive_comp f (fun x => x - s) t l 1); [exact H|].
  auto_derive; auto.
Qed.

Lemma ddpoly_continuous o cs t s : (1 <= o <= 5)%nat -> continuity_pt (fun x => ddpoly o cs (x - s)) t.
Proof.
  intros Ho. orders o; unfold ddpoly; simpl; reg.
Qed.

(** ** Joined segments *)

Section Traj.
Variables (o : nat) (D P : list R) (segs : list (list R)).
Hypothesis Ho : (1 <= o <= 5)%nat.
Hypothesis Hn : (1 <= length D)%nat.
Hypothesis Hsmall : (Z.of_nat (length D) < 2 ^ 31)%Z.
Hypothesis HD : positive D.
Hypothesis Hsegs : segments o (length D) segs.

Local Notation n := (length D).
Local Notation l := (splines_of segs D).
Local Notation c := (holding (splines_of segs D)).

Lemma traj_length : length l = n.
Proof. unfold splines_of. now rewrite map_length, seq_length. Qed.

Lemma traj_nth i : (i < n)%nat -> nth_error l i = Some (spline_of (nth i segs []) (nth i D 0)).
Proof.
  intros Hi. rewrite (nth_error_nth' l (spline_default o)) by now rewrite traj_length.
  f_equal. unfold splines_of. now rewrite nth_map_seq.
Qed.

Lemma traj_positive : positive_durations l.
Proof.
  apply Forall_forall. intros s Hs. unfold splines_of in Hs. apply in_map_iff in Hs as (i & <- & Hi).
  apply in_seq in Hi. apply HD. lia.
Qed.

Lemma traj_countable : countable_splines l.
Proof. unfold countable_splines. now rewrite traj_length. Qed.

Lemma seg_length i : (i < n)%nat -> length (nth i segs []) = (o + 1)%nat.
Proof.
  destruct Hsegs as [L H]. intros Hi. rewrite Forall_forall in H. apply H, nth_In. lia.
Qed.

Lemma traj_start_S i : (i < n)%nat -> start l (i + 1) = start l i + nth i D 0.
Proof. intros Hi. apply (start_S' _ _ _ (traj_nth i Hi)). Qed.

Lemma half_open i t : (i < n)%nat -> start l i <= t < start l (i + 1) ->
  get_position_at_time o c t = Ok (poly o (nth i segs []) (t - start l i)) /\
  get_velocity_at_time o c t = Ok (dpoly o (nth i segs []) (t - start l i)) /\
  get_acceleration_at_time o c t = Ok (ddpoly o (nth i segs []) (t - start l i)).
Proof.
  intros Hi Ht. pose proof (traj_start_S i Hi) as ES. pose proof (seg_length i Hi) as L.
  assert (Hch : in_charge l i t) by (split; [now rewrite traj_length|]; split; [right|left]; lra).
  pose proof (fun f => get_at_charge f c t i _ traj_positive traj_countable Hch (traj_nth i Hi)) as G.
  cbn [c_splines holding] in G. unfold get_position_at_time, get_velocity_at_time, get_acceleration_at_time.
  rewrite !G. rewrite position_poly, velocity_poly, acceleration_poly by auto.
  cbn [s_duration s_coefs spline_of]. rewrite restrict_in by lra. auto.
Qed.

Lemma last_end t : start l n = t ->
  get_position_at_time o c t = Ok (poly o (nth (n - 1) segs []) (nth (n - 1) D 0)) /\
  get_velocity_at_time o c t = Ok (dpoly o (nth (n - 1) segs []) (nth (n - 1) D 0)) /\
  get_acceleration_at_time o c t = Ok (ddpoly o (nth (n - 1) segs []) (nth (n - 1) D 0)).
Proof.
  intros Et. assert (Hi : (n - 1 < n)%nat) by lia.
  pose proof (traj_start_S (n - 1) Hi) as ES. replace (n - 1 + 1)%nat with n in ES by lia.
  pose proof (seg_length (n - 1) Hi) as L. pose proof (HD (n - 1)%nat Hi) as Hp.
  assert (Hch : in_charge l (n - 1) t) by (split; [now rewrite traj_length|]; split; [right; lra|right; rewrite traj_length; lia]).
  pose proof (fun f => get_at_charge f c t (n - 1) _ traj_positive traj_countable Hch (traj_nth (n - 1) Hi)) as G.
  cbn [c_splines holding] in G. unfold get_position_at_time, get_velocity_at_time, get_acceleration_at_time.
  rewrite !G. rewrite position_poly, velocity_poly, acceleration_poly by auto.
  cbn [s_duration s_coefs spline_of].
  replace (t - start l (n - 1)) with (nth (n - 1) D 0) by lra. rewrite restrict_in by lra. auto.
Qed.

Lemma traj_total : total l = start l n.
Proof. symmetry. apply start_all. rewrite traj_length. lia. Qed.

Lemma traj_charge t : 0 <= t < start l n -> exists i, (i < n)%nat /\ start l i <= t < start l (i + 1).
Proof.
  intros Ht. destruct (in_charge_exists l t) as (i & A & B & E).
  { intros E. pose proof traj_length. rewrite E in *. simpl in *. lia. }
  rewrite traj_length in *. exists i. split; [exact A|].
  split; [destruct B as [->|B]; [rewrite start_0; lra|exact B]|].
  destruct E as [E|E]; [exact E|]. rewrite E. lra.
Qed.

Lemma start_lt i j : (i < j <= n)%nat -> start l i < start l j.
Proof. intros H. apply start_mono; [apply traj_positive|rewrite traj_length; lia]. Qed.

(** Positions agree at the knots: enough for interpolation. *)
Definition joined0 : Prop :=
  poly o (nth 0 segs []) 0 = nth 0 P 0 /\
  poly o (nth (n - 1) segs []) (nth (n - 1) D 0) = nth n P 0 /\
  forall i, (i + 1 < n)%nat -> poly o (nth (i + 1) segs []) 0 = nth (i + 1) P 0.

Lemma knots_met : joined0 -> forall i, (i <= n)%nat ->
  get_position_at_time o c (start l i) = Ok (nth i P 0).
Proof.
  intros (J0 & J1 & J2) i Hi. destruct (Nat.eq_dec i n) as [->|Hne].
  - destruct (last_end (start l n) eq_refl) as [-> _]. now rewrite J1.
  - pose proof (start_lt i (i + 1) ltac:(lia)).
    destruct (half_open i (start l i) ltac:(lia) ltac:(lra)) as [-> _].
    rewrite Rminus_diag_eq by reflexivity. f_equal. destruct i as [|i]; [exact J0|].
    rewrite <- Nat.add_1_r. apply J2. lia.
Qed.

Hypothesis Hj : joined o n D P segs.

Lemma closed_piece i t : (i < n)%nat -> start l i <= t <= start l (i + 1) ->
  position o c t = poly o (nth i segs []) (t - start l i) /\
  velocity o c t = dpoly o (nth i segs []) (t - start l i) /\
  acceleration o c t = ddpoly o (nth i segs []) (t - start l i).
Proof.
  intros Hi Ht. unfold position, velocity, acceleration.
  destruct (Rlt_or_le t (start l (i + 1))) as [Hlt|Hge].
  - destruct (half_open i t Hi ltac:(lra)) as (-> & -> & ->). auto.
  - assert (Et : t = start l (i + 1)) by lra.
    assert (Ed : t - start l i = nth i D 0) by (pose proof (traj_start_S i Hi); lra). rewrite Ed.
    destruct (Nat.eq_dec (i + 1) n) as [En|En].
    + rewrite En in Et. destruct (last_end t (eq_sym Et)) as (-> & -> & ->).
      replace (n - 1)%nat with i by lia. auto.
    + pose proof (start_lt (i + 1) (i + 1 + 1) ltac:(lia)).
      destruct (half_open (i + 1) t ltac:(lia) ltac:(lra)) as (-> & -> & ->).
      rewrite Rminus_diag_eq by exact Et.
      destruct (Hj i ltac:(lia)) as (A & B & E & F). cbn [value]. repeat split; congruence.
Qed.

Lemma two_sides t : 0 < t < start l n ->
  exists d i j, 0 < d /\ (i < n)%nat /\ (j < n)%nat /\
    (forall x, t - d < x <= t -> start l i <= x <= start l (i + 1)) /\
    (forall x, t <= x < t + d -> start l j <= x <= start l (j + 1)).
Proof.
  intros Ht. destruct (traj_charge t ltac:(lra)) as (j & Hjn & Hjt).
  destruct (Rlt_or_le (start l j) t) as [Hlt|Hge].
  - exists (Rmin (t - start l j) (start l (j + 1) - t)), j, j.
    pose proof (Rmin_l (t - start l j) (start l (j + 1) - t)).
    pose proof (Rmin_r (t - start l j) (start l (j + 1) - t)).
    split; [apply Rmin_glb_lt; lra|]. split; [exact Hjn|]. split; [exact Hjn|].
    split; intros x Hx; lra.
  - assert (Et : t = start l j) by lra.
    destruct j as [|j]; [rewrite start_0 in Et; lra|].
    pose proof (start_lt j (S j) ltac:(lia)) as H1.
    set (d := Rmin (start l (S j) - start l j) (start l (S j + 1) - t)).
    pose proof (Rmin_l (start l (S j) - start l j) (start l (S j + 1) - t)).
    pose proof (Rmin_r (start l (S j) - start l j) (start l (S j + 1) - t)).
    exists d, j, (S j). split; [apply Rmin_glb_lt; lra|]. split; [lia|]. split; [exact Hjn|].
    rewrite (Nat.add_1_r j). split; intros x Hx; unfold d in *; lra.
Qed.

Lemma traj_smooth :
  velocity_is_derivative o c 0 (start l n) /\
  acceleration_is_derivative o c 0 (start l n) /\
  acceleration_continuous o c 0 (start l n).
Proof.
  assert (Hpos : 0 < start l n) by (rewrite <- (start_0 l); apply start_lt; lia).
  assert (P0 : forall i t, (i < n)%nat -> start l i <= t <= start l (i + 1) ->
     derivable_pt_lim (fun x => poly o (nth i segs []) (x - start l i)) t (velocity o c t)).
  { intros i t Hi Ht. destruct (closed_piece i t Hi Ht) as (_ & -> & _). apply shift_derive, poly_derive. }
  assert (V0 : forall i t, (i < n)%nat -> start l i <= t <= start l (i + 1) ->
     derivable_pt_lim (fun x => dpoly o (nth i segs []) (x - start l i)) t (acceleration o c t)).
  { intros i t Hi Ht. destruct (closed_piece i t Hi Ht) as (_ & _ & ->). apply shift_derive, dpoly_derive. }
  pose proof (start_lt 0 (0 + 1) ltac:(lia)) as Hs1. rewrite start_0 in Hs1.
  pose proof (start_lt (n - 1) n ltac:(lia)) as Hs2.
  assert (En : (n - 1 + 1)%nat = n) by lia.
  split; [split; [|split]|split; [split; [|split]|]].
  - intros t Ht. destruct (two_sides t Ht) as (d & i & j & Hd & Hi & Hj' & Hl & Hr).
    apply (glue_derivative _ (fun x => poly o (nth i segs []) (x - start l i))
             (fun x => poly o (nth j segs []) (x - start l j)) t _ d Hd).
    + intros x Hx. apply closed_piece; auto.
    + intros x Hx. apply closed_piece; auto.
    + apply P0; [exact Hi|]. apply Hl. lra.
    + apply P0; [exact Hj'|]. apply Hr. lra.
  - apply (glue_right _ (fun x => poly o (nth 0 segs []) (x - start l 0)) 0 _ (start l (0 + 1))); [lra| |].
    + intros x Hx. apply closed_piece; [lia|rewrite start_0; lra].
    + apply P0; [lia|rewrite start_0; lra].
  - apply (glue_left _ (fun x => poly o (nth (n - 1) segs []) (x - start l (n - 1))) _ _ (start l n - start l (n - 1))); [lra| |].
    + intros x Hx. apply closed_piece; [lia|rewrite En; lra].
    + apply P0; [lia|rewrite En; lra].
  - intros t Ht. destruct (two_sides t Ht) as (d & i & j & Hd & Hi & Hj' & Hl & Hr).
    apply (glue_derivative _ (fun x => dpoly o (nth i segs []) (x - start l i))
             (fun x => dpoly o (nth j segs []) (x - start l j)) t _ d Hd).
    + intros x Hx. apply closed_piece; auto.
    + intros x Hx. apply closed_piece; auto.
    + apply V0; [exact Hi|]. apply Hl. lra.
    + apply V0; [exact Hj'|]. apply Hr. lra.
  - apply (glue_right _ (fun x => dpoly o (nth 0 segs []) (x - start l 0)) 0 _ (start l (0 + 1))); [lra| |].
    + intros x Hx. apply closed_piece; [lia|rewrite start_0; lra].
    + apply V0; [lia|rewrite start_0; lra].
  - apply (glue_left _ (fun x => dpoly o (nth (n - 1) segs []) (x - start l (n - 1))) _ _ (start l n - start l (n - 1))); [lra| |].
    + intros x Hx. apply closed_piece; [lia|rewrite En; lra].
    + apply V0; [lia|rewrite En; lra].
  - intros t Ht. destruct (two_sides t Ht) as (d & i & j & Hd & Hi & Hj' & Hl & Hr).
    apply (glue_continuity _ (fun x => ddpoly o (nth i segs []) (x - start l i))
             (fun x => ddpoly o (nth j segs []) (x - start l j)) t d Hd).
    + intros x Hx. apply closed_piece; auto.
    + intros x Hx. apply closed_piece; auto.
    + now apply ddpoly_continuous.
    + now apply ddpoly_continuous.
Qed.

End Traj.

(** ** Knot times *)

Lemma diffs_positive knots : increasing knots -> positive (diffs knots).
Proof.
  intros Hi i L. rewrite diffs_length in L. rewrite diffs_nth by lia. specialize (Hi i ltac:(lia)). lra.
Qed.

Lemma start_knots segs knots i : (i < length knots)%nat ->
  start (splines_of segs (diffs knots)) i = nth i knots 0 - nth 0 knots 0.
Proof.
  induction i as [|i IH]; intros L; [rewrite start_0; lra|].
  assert (Li : (i < length (diffs knots))%nat) by (rewrite diffs_length; lia).
  rewrite <- Nat.add_1_r.
  assert (E : nth_error (splines_of segs (diffs knots)) i = Some (spline_of (nth i segs []) (nth i (diffs knots) 0))).
  { rewrite (nth_error_nth' _ (spline_default 0)) by (unfold splines_of; rewrite map_length, seq_length; lia).
    f_equal. unfold splines_of. now rewrite nth_map_seq. }
  rewrite (start_S' _ _ _ E), IH by lia. cbn [s_duration spline_of]. rewrite diffs_nth by lia. lra.
Qed.
