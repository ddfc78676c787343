(** * C68 - C70: what setData determines, over the reals *)

From Coq Require Import Reals Lra Lia.
From Coquelicot Require Import Coquelicot.
From Coq Require Import List Bool Arith ZArith.
From Verif Require Import Base Num TimeInst Spline SplineSpec LinSpec SplineProofs
  Container ContainerSpec ContainerProofs SetDataSpec SetDataSys SetDataProofs SetDataExist SetDataTraj SetDataTop
  SetDataUnique SetDataEnergy Props_SetData.
Import ListNotations.
Local Open Scope R_scope.

(** ** Specifications *)

(** Linear combination of two lists, entry by entry. *)
Fixpoint combination (x y : R) (a b : list R) : list R :=
  match a, b with
  | p :: a', q :: b' => x * p + y * q :: combination x y a' b'
  | _, _ => []
  end.

(** A function with two derivatives on the time range of the knots, the second one
    continuous, through all positions and with the given velocities at both ends. *)
Definition competitor (knots positions : list R) (v0 vT : R) (g g1 g2 : R -> R) : Prop :=
  (forall t, 0 <= t <= duration_of knots ->
     derivable_pt_lim g t (g1 t) /\ derivable_pt_lim g1 t (g2 t) /\ continuity_pt g2 t) /\
  (forall i, (i < length knots)%nat -> g (nth i knots 0 - nth 0 knots 0) = nth i positions 0) /\
  g1 0 = v0 /\ g1 (duration_of knots) = vT.

(** ** Segments *)

Lemma positive_nth knots i : increasing knots -> (i < length (diffs knots))%nat -> 0 < nth i (diffs knots) 0.
Proof. intros Hi L. now apply (diffs_positive knots Hi). Qed.

(** At any time, one and the same segment is evaluated whatever the coefficients. *)
Lemma any_time knots t : (2 <= length knots)%nat -> increasing knots -> (Z.of_nat (length knots) < 2 ^ 29)%Z ->
  exists i, (i < length (diffs knots))%nat /\ forall o segs, (1 <= o <= 5)%nat -> segments o (length (diffs knots)) segs ->
    let u := restrict (t - (nth i knots 0 - nth 0 knots 0)) (nth i (diffs knots) 0) in
    position o (holding (splines_of segs (diffs knots))) t = poly o (nth i segs []) u /\
    velocity o (holding (splines_of segs (diffs knots))) t = dpoly o (nth i segs []) u /\
    acceleration o (holding (splines_of segs (diffs knots))) t = ddpoly o (nth i segs []) u.
Proof.
  intros Hlen Hi Hsm. pose proof (diffs_length knots) as LD. set (D := diffs knots) in *.
  destruct (in_charge_exists (splines_of [] D) t) as (i & A & B & C).
  { intros E. pose proof (traj_length D []) as L. rewrite E in L. cbn in L. lia. }
  rewrite traj_length in *. exists i. split; [exact A|]. intros o segs Ho Hs u.
  assert (Es : forall j, (j < length knots)%nat -> start (splines_of [] D) j = start (splines_of segs D) j).
  { intros j Hj. unfold D. now rewrite !start_knots. }
  assert (Hch : in_charge (splines_of segs D) i t).
  { split; [now rewrite traj_length|]. rewrite traj_length, <- !Es by lia. auto. }
  assert (HD : positive D) by now apply diffs_positive.
  pose proof (traj_positive o D segs Ho ltac:(lia) HD) as Hp.
  pose proof (traj_countable D segs ltac:(lia)) as Hc.
  pose proof (fun f => get_at_charge f (holding (splines_of segs D)) t i _ Hp Hc Hch (traj_nth o D segs i A)) as G.
  cbn [c_splines holding] in G.
  assert (Lk : length (nth i segs []) = (o + 1)%nat) by (apply (seg_length o D segs); auto; lia).
  unfold position, velocity, acceleration, get_position_at_time, get_velocity_at_time, get_acceleration_at_time.
  rewrite !G. rewrite position_poly, velocity_poly, acceleration_poly by auto.
  cbn [s_duration s_coefs spline_of value]. unfold D. rewrite start_knots by lia. auto.
Qed.

Lemma combination_length x y a : forall b, length a = length b -> length (combination x y a b) = length a.
Proof. induction a as [|p a IH]; intros [|q b] L; cbn in *; try lia. now rewrite IH by lia. Qed.

Lemma combination_nth x y a : forall b i, length a = length b ->
  nth i (combination x y a b) 0 = x * nth i a 0 + y * nth i b 0.
Proof.
  induction a as [|p a IH]; intros [|q b] i L; cbn in L; try discriminate.
  - destruct i; cbn; ring.
  - destruct i; cbn; [reflexivity|]. apply IH. lia.
Qed.

Lemma combination_poly x y cs cs' t : length cs = 4%nat -> length cs' = 4%nat ->
  poly 3 (combination x y cs cs') t = x * poly 3 cs t + y * poly 3 cs' t /\
  dpoly 3 (combination x y cs cs') t = x * dpoly 3 cs t + y * dpoly 3 cs' t /\
  ddpoly 3 (combination x y cs cs') t = x * ddpoly 3 cs t + y * ddpoly 3 cs' t.
Proof.
  intros L L'. destruct cs as [|a [|b [|e [|f [|? ?]]]]]; try discriminate L.
  destruct cs' as [|a' [|b' [|e' [|f' [|? ?]]]]]; try discriminate L'.
  unfold poly, dpoly, ddpoly; simpl. repeat split; ring.
Qed.

Lemma seg_len o n segs i : segments o n segs -> (i < n)%nat -> length (nth i segs []) = (o + 1)%nat.
Proof. intros [L H] Hi. rewrite Forall_forall in H. apply H, nth_In. lia. Qed.

(** Segments made one by one. *)
Lemma good_cubic_intro D P v0 vT f n : length D = n -> (1 <= n)%nat ->
  (forall i, (i < n)%nat -> length (f i) = 4%nat) ->
  poly 3 (f 0%nat) 0 = nth 0 P 0 -> dpoly 3 (f 0%nat) 0 = v0 ->
  poly 3 (f (n - 1)%nat) (nth (n - 1) D 0) = nth n P 0 -> dpoly 3 (f (n - 1)%nat) (nth (n - 1) D 0) = vT ->
  (forall i, (i + 1 < n)%nat ->
    poly 3 (f i) (nth i D 0) = nth (i + 1) P 0 /\ poly 3 (f (i + 1)%nat) 0 = nth (i + 1) P 0 /\
    dpoly 3 (f i) (nth i D 0) = dpoly 3 (f (i + 1)%nat) 0 /\
    ddpoly 3 (f i) (nth i D 0) = ddpoly 3 (f (i + 1)%nat) 0) ->
  segments 3 n (map f (seq 0 n)) /\ good 3 n D P [v0] [vT] (map f (seq 0 n)).
Proof.
  intros LD Hn Hl A1 A2 B1 B2 J. split; [now apply segments_map|].
  split; [|split].
  - rewrite nth_map_seq by lia. cbn. auto.
  - rewrite nth_map_seq by lia. cbn. auto.
  - intros i Hi. rewrite !nth_map_seq by lia. now apply J.
Qed.

(** ** C68 *)

(** The order 3 trajectory depends on the data alone: not on what was in the
    container before, not on the solver as long as it is exact. *)
Theorem C68_cubic_unique : forall (solve solve' : solver R) c c' knots P v0 vT,
  exact_solver solve -> exact_solver solve' -> valid_knots knots P ->
  exists r, set_data4 solve 3 c knots P v0 vT = Ok (true, r) /\ set_data4 solve' 3 c' knots P v0 vT = Ok (true, r) /\
    forall a0 aT b0 bT, set_data6 solve 3 c knots P v0 a0 vT aT = Ok (true, r) /\
                        set_data6 solve' 3 c' knots P v0 b0 vT bT = Ok (true, r).
Proof.
  intros solve solve' c c' knots P v0 vT Hs Hs' Hv.
  destruct (set_data4_stores solve 3 c knots P v0 vT Hs ltac:(lia) Hv) as (segs & A & B & E).
  destruct (set_data4_stores solve' 3 c' knots P v0 vT Hs' ltac:(lia) Hv) as (segs' & A' & B' & E').
  destruct Hv as (Hlen & Hi & LP & Hsm). pose proof (diffs_length knots).
  assert (segs = segs') as <-.
  { apply (good_cubic_unique (diffs knots) P v0 vT); auto; [now apply diffs_positive|lia]. }
  eexists. split; [exact E|]. split; [exact E'|]. intros. rewrite !set_data6_drops by (auto; lia). auto.
Qed.

(** The trajectory is linear in positions and boundary velocities. *)
Theorem C68_cubic_superposition : forall (solve : solver R) c c1 c2 knots P Q v0 vT w0 wT x y,
  exact_solver solve -> valid_knots knots P -> valid_knots knots Q ->
  exists r1 r2 r, set_data4 solve 3 c1 knots P v0 vT = Ok (true, r1) /\
    set_data4 solve 3 c2 knots Q w0 wT = Ok (true, r2) /\
    set_data4 solve 3 c knots (combination x y P Q) (x * v0 + y * w0) (x * vT + y * wT) = Ok (true, r) /\
    forall t, position 3 r t = x * position 3 r1 t + y * position 3 r2 t /\
              velocity 3 r t = x * velocity 3 r1 t + y * velocity 3 r2 t /\
              acceleration 3 r t = x * acceleration 3 r1 t + y * acceleration 3 r2 t.
Proof.
  intros solve c c1 c2 knots P Q v0 vT w0 wT x y Hs Hv Hv'.
  destruct (set_data4_stores solve 3 c1 knots P v0 vT Hs ltac:(lia) Hv) as (s1 & A1 & B1 & E1).
  destruct (set_data4_stores solve 3 c2 knots Q w0 wT Hs ltac:(lia) Hv') as (s2 & A2 & B2 & E2).
  destruct Hv as (Hlen & Hi & LP & Hsm). destruct Hv' as (_ & _ & LQ & _).
  assert (LPQ : length P = length Q) by lia.
  assert (Hv : valid_knots knots (combination x y P Q)).
  { repeat split; auto. rewrite combination_length; auto. }
  destruct (set_data4_stores solve 3 c knots _ (x * v0 + y * w0) (x * vT + y * wT) Hs ltac:(lia) Hv) as (s3 & A3 & B3 & E3).
  pose proof (diffs_length knots) as LD. set (D := diffs knots) in *.
  assert (HD : positive D) by now apply diffs_positive.
  set (f i := combination x y (nth i s1 []) (nth i s2 [])).
  assert (L1 : forall i, (i < length D)%nat -> length (nth i s1 []) = 4%nat) by (intros; eapply (seg_len 3); eauto).
  assert (L2 : forall i, (i < length D)%nat -> length (nth i s2 []) = 4%nat) by (intros; eapply (seg_len 3); eauto).
  assert (Hf : forall i t, (i < length D)%nat ->
    poly 3 (f i) t = x * poly 3 (nth i s1 []) t + y * poly 3 (nth i s2 []) t /\
    dpoly 3 (f i) t = x * dpoly 3 (nth i s1 []) t + y * dpoly 3 (nth i s2 []) t /\
    ddpoly 3 (f i) t = x * ddpoly 3 (nth i s1 []) t + y * ddpoly 3 (nth i s2 []) t).
  { intros i t L. unfold f. apply combination_poly; auto. }
  assert (X : s3 = map f (seq 0 (length D))).
  { destruct B1 as ((P1 & V1 & _) & (P1' & V1' & _) & J1). destruct B2 as ((P2 & V2 & _) & (P2' & V2' & _) & J2).
    destruct (good_cubic_intro D (combination x y P Q) (x * v0 + y * w0) (x * vT + y * wT) f (length D)) as [G1 G2];
      [reflexivity|lia| | | | | | |].
    - intros i L. unfold f. rewrite combination_length; auto. rewrite L1, L2; auto.
    - destruct (Hf 0%nat 0 ltac:(lia)) as (-> & _). now rewrite combination_nth, P1, P2.
    - destruct (Hf 0%nat 0 ltac:(lia)) as (_ & -> & _). now rewrite V1, V2.
    - destruct (Hf (length D - 1)%nat (nth (length D - 1) D 0) ltac:(lia)) as (-> & _).
      now rewrite combination_nth, P1', P2'.
    - destruct (Hf (length D - 1)%nat (nth (length D - 1) D 0) ltac:(lia)) as (_ & -> & _). now rewrite V1', V2'.
    - intros i L. destruct (J1 i L) as (a1 & a2 & a3 & a4). destruct (J2 i L) as (b1 & b2 & b3 & b4).
      destruct (Hf i (nth i D 0) ltac:(lia)) as (-> & -> & ->).
      destruct (Hf (i + 1)%nat 0 ltac:(lia)) as (-> & -> & ->).
      rewrite combination_nth by exact LPQ. rewrite a1, a2, a3, a4, b1, b2, b3, b4. auto.
    - apply (good_cubic_unique D (combination x y P Q) (x * v0 + y * w0) (x * vT + y * wT)); auto. lia. }
  exists (holding (splines_of s1 D)), (holding (splines_of s2 D)), (holding (splines_of s3 D)).
  split; [exact E1|]. split; [exact E2|]. split; [exact E3|]. intros t.
  destruct (any_time knots t Hlen Hi Hsm) as (i & L & H). fold D in L, H.
  destruct (H 3%nat s1 ltac:(lia) A1) as (-> & -> & ->). destruct (H 3%nat s2 ltac:(lia) A2) as (-> & -> & ->).
  destruct (H 3%nat s3 ltac:(lia) A3) as (-> & -> & ->).
  rewrite X, nth_map_seq by exact L. now apply Hf.
Qed.

(** *** Played backwards *)

Definition reversed (d : R) (cs : list R) : list R :=
  match cs with
  | [a; b; e; f] => [- a; 3 * a * d + b; - (3 * a * d ^ 2 + 2 * b * d + e); a * d ^ 3 + b * d ^ 2 + e * d + f]
  | _ => []
  end.

Lemma reversed_poly d cs t : length cs = 4%nat ->
  poly 3 (reversed d cs) t = poly 3 cs (d - t) /\ dpoly 3 (reversed d cs) t = - dpoly 3 cs (d - t) /\
  ddpoly 3 (reversed d cs) t = ddpoly 3 cs (d - t).
Proof.
  intros L. destruct cs as [|a [|b [|e [|f [|? ?]]]]]; try discriminate L.
  unfold poly, dpoly, ddpoly; simpl. repeat split; ring.
Qed.

Definition backwards (knots : list R) : list R := map Ropp (rev knots).

Lemma backwards_nth knots i : (i < length knots)%nat -> nth i (backwards knots) 0 = - nth (length knots - 1 - i) knots 0.
Proof.
  intros L. unfold backwards. rewrite (nth_indep _ 0 (- 0)) by (rewrite map_length, rev_length; lia).
  rewrite map_nth, rev_nth by exact L. do 2 f_equal. lia.
Qed.

Lemma backwards_length knots : length (backwards knots) = length knots.
Proof. unfold backwards. now rewrite map_length, rev_length. Qed.

Lemma backwards_valid knots P : valid_knots knots P -> valid_knots (backwards knots) (rev P).
Proof.
  intros (Hlen & Hi & LP & Hsm). unfold valid_knots. rewrite backwards_length, rev_length.
  repeat split; auto. intros i L. rewrite backwards_length in L. rewrite !backwards_nth by lia.
  pose proof (Hi (length knots - 1 - (i + 1))%nat ltac:(lia)) as H.
  replace (length knots - 1 - (i + 1) + 1)%nat with (length knots - 1 - i)%nat in H by lia. lra.
Qed.

Lemma backwards_diffs knots i : (i < length (diffs knots))%nat ->
  nth i (diffs (backwards knots)) 0 = nth (length (diffs knots) - 1 - i) (diffs knots) 0.
Proof.
  rewrite diffs_length. intros L. rewrite !diffs_nth by (rewrite ?backwards_length; lia).
  rewrite !backwards_nth by lia.
  replace (length knots - 1 - 1 - i + 1)%nat with (length knots - 1 - i)%nat by lia.
  replace (length knots - 1 - (i + 1))%nat with (length knots - 1 - 1 - i)%nat by lia. ring.
Qed.

(** Running through the knots backwards gives the same trajectory backwards. *)
Theorem C68_cubic_reversal : forall (solve : solver R) c c1 knots P v0 vT,
  exact_solver solve -> valid_knots knots P ->
  exists r r1, set_data4 solve 3 c knots P v0 vT = Ok (true, r) /\
    set_data4 solve 3 c1 (map Ropp (rev knots)) (rev P) (- vT) (- v0) = Ok (true, r1) /\
    forall t, 0 <= t <= duration_of knots ->
      position 3 r1 t = position 3 r (duration_of knots - t) /\
      velocity 3 r1 t = - velocity 3 r (duration_of knots - t) /\
      acceleration 3 r1 t = acceleration 3 r (duration_of knots - t).
Proof.
  intros solve c c1 knots P v0 vT Hs Hv. fold (backwards knots).
  destruct (set_data4_stores solve 3 c knots P v0 vT Hs ltac:(lia) Hv) as (s1 & A1 & B1 & E1).
  pose proof (backwards_valid knots P Hv) as Hv'.
  destruct (set_data4_stores solve 3 c1 _ _ (- vT) (- v0) Hs ltac:(lia) Hv') as (s2 & A2 & B2 & E2).
  destruct Hv as (Hlen & Hi & LP & Hsm). destruct Hv' as (_ & Hi' & LP' & _).
  assert (LD' : length (diffs (backwards knots)) = length (diffs knots)) by now rewrite !diffs_length, backwards_length.
  pose proof (diffs_length knots) as LD. pose proof (backwards_diffs knots) as Hd.
  assert (HD : positive (diffs knots)) by now apply diffs_positive.
  assert (HD' : positive (diffs (backwards knots))) by now apply diffs_positive.
  rewrite LD' in *. set (D := diffs knots) in *. set (D' := diffs (backwards knots)) in *.
  set (n := length D) in *.
  set (f i := reversed (nth (n - 1 - i) D 0) (nth (n - 1 - i) s1 [])).
  assert (L1 : forall i, (i < n)%nat -> length (nth i s1 []) = 4%nat) by (intros; eapply (seg_len 3); eauto).
  assert (Hf : forall i t, (i < n)%nat ->
    poly 3 (f i) t = poly 3 (nth (n - 1 - i) s1 []) (nth (n - 1 - i) D 0 - t) /\
    dpoly 3 (f i) t = - dpoly 3 (nth (n - 1 - i) s1 []) (nth (n - 1 - i) D 0 - t) /\
    ddpoly 3 (f i) t = ddpoly 3 (nth (n - 1 - i) s1 []) (nth (n - 1 - i) D 0 - t)).
  { intros i t L. unfold f. apply reversed_poly. apply L1. lia. }
  assert (Hr : forall i, (i <= n)%nat -> nth i (rev P) 0 = nth (n - i) P 0).
  { intros i L. rewrite rev_nth by lia. f_equal. lia. }
  assert (X : s2 = map f (seq 0 n)).
  { destruct B1 as ((P1 & V1 & _) & (P1' & V1' & _) & J1).
    destruct (good_cubic_intro D' (rev P) (- vT) (- v0) f n) as [G1 G2]; [exact LD'|lia| | | | | | |].
    - intros i L. unfold f. pose proof (L1 (n - 1 - i)%nat ltac:(lia)) as Lx.
      destruct (nth (n - 1 - i) s1 []) as [|a [|b [|e [|g [|? ?]]]]]; try discriminate Lx. reflexivity.
    - destruct (Hf 0%nat 0 ltac:(lia)) as (-> & _). rewrite Hr, !Nat.sub_0_r, Rminus_0_r by lia. exact P1'.
    - destruct (Hf 0%nat 0 ltac:(lia)) as (_ & -> & _). rewrite Nat.sub_0_r, Rminus_0_r. now rewrite V1'.
    - destruct (Hf (n - 1)%nat (nth (n - 1) D' 0) ltac:(lia)) as (-> & _).
      rewrite Hd, Hr, !Nat.sub_diag by lia. rewrite Rminus_diag_eq by reflexivity. exact P1.
    - destruct (Hf (n - 1)%nat (nth (n - 1) D' 0) ltac:(lia)) as (_ & -> & _).
      rewrite Hd, !Nat.sub_diag by lia. rewrite Rminus_diag_eq by reflexivity. now rewrite V1.
    - intros i L. destruct (J1 (n - 1 - (i + 1))%nat ltac:(lia)) as (a1 & a2 & a3 & a4).
      replace (n - 1 - (i + 1) + 1)%nat with (n - 1 - i)%nat in * by lia.
      destruct (Hf i (nth i D' 0) ltac:(lia)) as (-> & -> & ->).
      destruct (Hf (i + 1)%nat 0 ltac:(lia)) as (-> & -> & ->).
      rewrite Hd, Hr by lia. rewrite !Rminus_diag_eq by reflexivity. rewrite !Rminus_0_r.
      replace (n - (i + 1))%nat with (n - 1 - i)%nat by lia. rewrite a1, a2, a3, a4. auto.
    - apply (good_cubic_unique D' (rev P) (- vT) (- v0)); auto; try lia; rewrite LD'; auto. }
  exists (holding (splines_of s1 D)), (holding (splines_of s2 D')). split; [exact E1|]. split; [exact E2|].
  intros t Ht.
  assert (Hn : (1 <= n)%nat) by lia.
  assert (Sm : (Z.of_nat n < 2 ^ 31)%Z) by lia.
  assert (ET : start (splines_of s1 D) n = duration_of knots).
  { unfold D, duration_of. rewrite start_knots by lia. do 2 f_equal. lia. }
  (* the segment of the forward trajectory *)
  assert (Hch : exists i, (i < n)%nat /\ start (splines_of s1 D) i <= duration_of knots - t <= start (splines_of s1 D) (i + 1)).
  { destruct (Rlt_or_le 0 t) as [H0|H0].
    - destruct (traj_charge 3 D s1 ltac:(lia) Hn Sm (duration_of knots - t)) as (i & L & H); [fold n; rewrite ET; lra|].
      exists i. fold n in L. split; [exact L|lra].
    - exists (n - 1)%nat. split; [lia|]. replace (n - 1 + 1)%nat with n by lia. rewrite ET.
      pose proof (start_lt 3 D s1 ltac:(lia) Hn HD (n - 1) n ltac:(fold n; lia)) as Hl. rewrite ET in Hl. lra. }
  destruct Hch as (i & L & H).
  assert (Ei : forall j, (j <= n)%nat -> start (splines_of s2 D') j = duration_of knots - start (splines_of s1 D) (n - j)).
  { intros j Lj. unfold D, D'. rewrite !start_knots by (rewrite ?backwards_length; lia).
    rewrite !backwards_nth by lia. unfold duration_of.
    replace (length knots - 1 - j)%nat with (n - j)%nat by lia.
    replace (length knots - 1 - 0)%nat with (length knots - 1)%nat by lia. lra. }
  destruct (closed_piece 3 D P s1 ltac:(lia) Hn Sm HD A1 ltac:(apply B1) i _ L H) as (-> & -> & ->).
  assert (L' : (n - 1 - i < length D')%nat) by (rewrite LD'; lia).
  destruct (closed_piece 3 D' (rev P) s2 ltac:(lia) ltac:(rewrite LD'; lia) ltac:(rewrite LD'; lia) HD'
    ltac:(rewrite LD'; exact A2) ltac:(rewrite LD'; apply B2) (n - 1 - i) t L') as (-> & -> & ->).
  { rewrite !Ei by lia. replace (n - (n - 1 - i))%nat with (i + 1)%nat by lia.
    replace (n - (n - 1 - i + 1))%nat with i by lia. lra. }
  pose proof (Hf (n - 1 - i)%nat (t - start (splines_of s2 D') (n - 1 - i)) ltac:(lia)) as F.
  replace (n - 1 - (n - 1 - i))%nat with i in F by lia.
  rewrite Ei in * by lia. replace (n - (n - 1 - i))%nat with (i + 1)%nat in * by lia.
  pose proof (traj_start_S 3 D s1 i L) as ES.
  replace (nth i D 0 - (t - (duration_of knots - start (splines_of s1 D) (i + 1)))) with
    (duration_of knots - t - start (splines_of s1 D) i) in F by lra.
  rewrite X, nth_map_seq by lia. exact F.
Qed.

(** ** C69 *)

(** Among all twice continuously differentiable functions through the knots with the
    given velocities at both ends the order 3 trajectory has the least integral of
    the squared acceleration, and no other one has as little. *)
Theorem C69_least_acceleration : forall (solve : solver R) c knots P v0 vT,
  exact_solver solve -> valid_knots knots P ->
  exists r, set_data4 solve 3 c knots P v0 vT = Ok (true, r) /\
    ex_RInt (fun t => acceleration 3 r t ^ 2) 0 (duration_of knots) /\
    forall g g1 g2, competitor knots P v0 vT g g1 g2 ->
      ex_RInt (fun t => g2 t ^ 2) 0 (duration_of knots) /\
      RInt (fun t => acceleration 3 r t ^ 2) 0 (duration_of knots) <= RInt (fun t => g2 t ^ 2) 0 (duration_of knots) /\
      (RInt (fun t => g2 t ^ 2) 0 (duration_of knots) <= RInt (fun t => acceleration 3 r t ^ 2) 0 (duration_of knots) ->
       forall t, 0 <= t <= duration_of knots -> g t = position 3 r t).
Proof.
  intros solve c knots P v0 vT Hs Hv.
  destruct (set_data4_stores solve 3 c knots P v0 vT Hs ltac:(lia) Hv) as (segs & A & B & E).
  destruct Hv as (Hlen & Hi & LP & Hsm). pose proof (diffs_length knots) as LD.
  assert (HD : positive (diffs knots)) by now apply diffs_positive.
  assert (Hn : (1 <= length (diffs knots))%nat) by lia.
  assert (Sm : (Z.of_nat (length (diffs knots)) < 2 ^ 31)%Z) by lia.
  assert (ET : start (splines_of segs (diffs knots)) (length (diffs knots)) = duration_of knots).
  { unfold duration_of. rewrite start_knots by lia. do 2 f_equal. lia. }
  exists (holding (splines_of segs (diffs knots))). split; [exact E|]. rewrite <- ET. split.
  { eapply integrable_acc; eauto. }
  intros g g1 g2 (Hd & Hk & H0 & HT). rewrite <- ET in HT, Hd.
  assert (Hk' : forall i, (i <= length (diffs knots))%nat -> g (start (splines_of segs (diffs knots)) i) = nth i P 0).
  { intros i L. rewrite start_knots by lia. apply Hk. lia. }
  assert (D0 := fun t Ht => proj1 (Hd t Ht)). assert (D1 := fun t Ht => proj1 (proj2 (Hd t Ht))).
  assert (D2 := fun t Ht => proj2 (proj2 (Hd t Ht))).
  destruct (energy_least (diffs knots) P segs v0 vT Hn Sm HD A B g g1 g2 D0 D1 D2 Hk' H0 HT) as [X Y].
  split; [exact X|]. split; [exact Y|]. intros Hle.
  apply (same_to (diffs knots) P segs v0 vT Hn Sm HD A B g g1 g2 D0 D1 D2 Hk' H0 HT Hle (length (diffs knots))). lia.
Qed.

(** The trajectory is itself one of those functions: restricted to its time range it
    extends to one (outside of the range the container holds the end values). *)
Section Attained.
Variables (D P : list R) (segs : list (list R)).
Hypothesis Hn : (1 <= length D)%nat.
Hypothesis Hsmall : (Z.of_nat (length D) < 2 ^ 31)%Z.
Hypothesis HD : positive D.
Hypothesis Hsegs : segments 3 (length D) segs.
Hypothesis Hj : joined 3 (length D) D P segs.

Local Notation n := (length D).
Local Notation l := (splines_of segs D).

Definition extended (f : R -> R) (piece : list R -> R -> R) (t : R) : R :=
  if Rlt_dec t 0 then piece (nth 0 segs []) (t - start l 0)
  else if Rlt_dec (start l n) t then piece (nth (n - 1) segs []) (t - start l (n - 1))
  else f t.

Lemma extended_inside f piece t : 0 <= t <= start l n -> extended f piece t = f t.
Proof.
  intros H. unfold extended. destruct (Rlt_dec t 0) as [Ha|Ha]; [lra|]. destruct (Rlt_dec (start l n) t) as [Hb|Hb]; [lra|reflexivity].
Qed.

Lemma extended_sides t : 0 <= t <= start l n -> exists d i j, 0 < d /\ (i < n)%nat /\ (j < n)%nat /\
  start l i <= t <= start l (i + 1) /\ start l j <= t <= start l (j + 1) /\
  forall f piece, (forall k x, (k < n)%nat -> start l k <= x <= start l (k + 1) -> f x = piece (nth k segs []) (x - start l k)) ->
    (forall x, t - d < x <= t -> extended f piece x = piece (nth i segs []) (x - start l i)) /\
    (forall x, t <= x < t + d -> extended f piece x = piece (nth j segs []) (x - start l j)).
Proof.
  intros Ht. pose proof (start_lt 3 D segs ltac:(lia) Hn HD 0 1 ltac:(lia)) as S1.
  pose proof (start_lt 3 D segs ltac:(lia) Hn HD (n - 1) n ltac:(lia)) as S2.
  assert (S0 : start l 0 = 0) by apply start_0.
  assert (S3 : start l 1 <= start l n).
  { destruct (Nat.eq_dec n 1) as [->|Hc]; [lra|]. pose proof (start_lt 3 D segs ltac:(lia) Hn HD 1 n ltac:(lia)). lra. }
  assert (S4 : 0 <= start l (n - 1)).
  { destruct (Nat.eq_dec n 1) as [E1|Hc]; [replace (n - 1)%nat with 0%nat by lia; lra|].
    pose proof (start_lt 3 D segs ltac:(lia) Hn HD 0 (n - 1) ltac:(lia)). lra. }
  assert (En : (n - 1 + 1)%nat = n) by lia.
  destruct (Req_dec t 0) as [->|H0]; [|destruct (Req_dec t (start l n)) as [->|HT]].
  - exists (start l 1), 0%nat, 0%nat. cbn [Nat.add].
    repeat split; try lra; try lia; intros x Hx; unfold extended.
    + destruct (Rlt_dec x 0) as [Ha|Ha]; [reflexivity|]. destruct (Rlt_dec (start l n) x) as [Hb|Hb]; [lra|].
      rewrite (H 0%nat x); [reflexivity|lia|cbn [Nat.add]; lra].
    + destruct (Rlt_dec x 0) as [Ha|Ha]; [lra|]. destruct (Rlt_dec (start l n) x) as [Hb|Hb]; [lra|].
      rewrite (H 0%nat x); [reflexivity|lia|cbn [Nat.add]; lra].
  - exists (start l n - start l (n - 1)), (n - 1)%nat, (n - 1)%nat. rewrite En.
    repeat split; try lra; try lia; intros x Hx; unfold extended.
    + destruct (Rlt_dec x 0) as [Ha|Ha]; [lra|]. destruct (Rlt_dec (start l n) x) as [Hb|Hb]; [lra|].
      apply H; [lia|rewrite En; lra].
    + destruct (Rlt_dec x 0) as [Ha|Ha]; [lra|]. destruct (Rlt_dec (start l n) x) as [Hb|Hb]; [reflexivity|].
      apply H; [lia|rewrite En; lra].
  - destruct (two_sides 3 D segs ltac:(lia) Hn Hsmall HD t ltac:(lra)) as (d & i & j & Hd & Hi & Hj' & Hl & Hr).
    exists (Rmin d (Rmin t (start l n - t))), i, j.
    pose proof (Rmin_l d (Rmin t (start l n - t))) as M1. pose proof (Rmin_r d (Rmin t (start l n - t))) as M2.
    pose proof (Rmin_l t (start l n - t)) as M3. pose proof (Rmin_r t (start l n - t)) as M4.
    split; [repeat apply Rmin_glb_lt; lra|]. split; [exact Hi|]. split; [exact Hj'|].
    split; [apply Hl; lra|]. split; [apply Hr; lra|]. intros f piece H. split; intros x Hx.
    + rewrite extended_inside by lra. apply H; [exact Hi|]. apply Hl. lra.
    + rewrite extended_inside by lra. apply H; [exact Hj'|]. apply Hr. lra.
Qed.

Lemma extended_smooth : let c := holding l in forall t, 0 <= t <= start l n ->
  derivable_pt_lim (extended (position 3 c) (poly 3)) t (extended (velocity 3 c) (dpoly 3) t) /\
  derivable_pt_lim (extended (velocity 3 c) (dpoly 3)) t (extended (acceleration 3 c) (ddpoly 3) t) /\
  continuity_pt (extended (acceleration 3 c) (ddpoly 3)) t.
Proof.
  intros c t Ht. pose proof (closed_piece 3 D P segs ltac:(lia) Hn Hsmall HD Hsegs Hj) as C. fold c in C.
  destruct (extended_sides t Ht) as (d & i & j & Hd & Hi & Hj' & Bi & Bj & X).
  rewrite !(extended_inside _ _ t) by exact Ht.
  destruct (X (position 3 c) (poly 3) (fun k x A B => proj1 (C k x A B))) as [X1 X2].
  destruct (X (velocity 3 c) (dpoly 3) (fun k x A B => proj1 (proj2 (C k x A B)))) as [Y1 Y2].
  destruct (X (acceleration 3 c) (ddpoly 3) (fun k x A B => proj2 (proj2 (C k x A B)))) as [Z1 Z2].
  destruct (C i t Hi Bi) as (_ & Vi & Ai). destruct (C j t Hj' Bj) as (_ & Vj & Aj).
  split; [|split].
  - apply (glue_derivative _ _ _ t _ d Hd X1 X2).
    + rewrite Vi. apply shift_derive, poly_derive.
    + rewrite Vj. apply shift_derive, poly_derive.
  - apply (glue_derivative _ _ _ t _ d Hd Y1 Y2).
    + rewrite Ai. apply shift_derive, dpoly_derive.
    + rewrite Aj. apply shift_derive, dpoly_derive.
  - apply (glue_continuity _ _ _ t d Hd Z1 Z2); apply ddpoly_continuous; lia.
Qed.
End Attained.

Theorem C69_attained : forall (solve : solver R) c knots P v0 vT,
  exact_solver solve -> valid_knots knots P ->
  exists r g g1 g2, set_data4 solve 3 c knots P v0 vT = Ok (true, r) /\
    competitor knots P v0 vT g g1 g2 /\
    forall t, 0 <= t <= duration_of knots ->
      g t = position 3 r t /\ g1 t = velocity 3 r t /\ g2 t = acceleration 3 r t.
Proof.
  intros solve c knots P v0 vT Hs Hv.
  destruct (set_data4_stores solve 3 c knots P v0 vT Hs ltac:(lia) Hv) as (segs & A & B & E).
  destruct Hv as (Hlen & Hi & LP & Hsm). pose proof (diffs_length knots) as LD.
  assert (HD : positive (diffs knots)) by now apply diffs_positive.
  assert (Hn : (1 <= length (diffs knots))%nat) by lia.
  assert (Sm : (Z.of_nat (length (diffs knots)) < 2 ^ 31)%Z) by lia.
  assert (ET : start (splines_of segs (diffs knots)) (length (diffs knots)) = duration_of knots).
  { unfold duration_of. rewrite start_knots by lia. do 2 f_equal. lia. }
  pose proof B as ((B1 & B2 & _) & (B3 & B4 & _) & Hj).
  pose proof (start_lt 3 (diffs knots) segs ltac:(lia) Hn HD) as Hl.
  pose proof (extended_smooth (diffs knots) P segs Hn Sm HD A Hj) as X.
  pose proof (extended_inside (diffs knots) segs) as I.
  pose proof (closed_piece 3 (diffs knots) P segs ltac:(lia) Hn Sm HD A Hj) as C.
  set (l := splines_of segs (diffs knots)) in *. set (n := length (diffs knots)) in *. cbv zeta in X.
  exists (holding l), (extended (diffs knots) segs (position 3 (holding l)) (poly 3)),
    (extended (diffs knots) segs (velocity 3 (holding l)) (dpoly 3)),
    (extended (diffs knots) segs (acceleration 3 (holding l)) (ddpoly 3)).
  rewrite <- ET. split; [exact E|]. split; [|intros t Ht; rewrite !I by exact Ht; auto].
  assert (S0 : start l 0 = 0) by apply start_0.
  assert (Hmono : forall i, (i <= n)%nat -> 0 <= start l i <= start l n).
  { intros i L. split.
    - destruct (Nat.eq_dec i 0) as [->|]; [lra|]. pose proof (Hl 0%nat i ltac:(lia)). lra.
    - destruct (Nat.eq_dec i n) as [->|]; [lra|]. pose proof (Hl i n ltac:(lia)). lra. }
  split; [|split; [|split]].
  - rewrite <- ET. exact X.
  - intros i L. rewrite <- (start_knots segs) by exact L. fold l. rewrite I by (apply Hmono; lia).
    unfold position. unfold l. rewrite (knots_met 3 (diffs knots) P segs); auto; try lia.
    split; [exact B1|]. split; [exact B3|]. intros k Lk. now destruct (Hj k Lk) as (_ & ? & _).
  - rewrite I by (pose proof (Hmono n (le_n n)); lra). pose proof (Hl 0%nat 1%nat ltac:(lia)).
    destruct (C 0%nat 0 ltac:(lia)) as (_ & -> & _); [cbn [Nat.add]; lra|]. now rewrite S0, Rminus_0_r.
  - rewrite <- ET, I by (pose proof (Hmono n (le_n n)); lra). pose proof (Hl (n - 1)%nat n ltac:(lia)).
    assert (En : (n - 1 + 1)%nat = n) by lia.
    destruct (C (n - 1)%nat (start l n) ltac:(lia)) as (_ & -> & _); [rewrite En; lra|].
    rewrite <- En at 2. unfold l. rewrite (traj_start_S 3) by (fold n; lia).
    replace (_ + _ - _) with (nth (n - 1) (diffs knots) 0) by ring. exact B4.
Qed.

(** ** C70 *)

(** For order 5 the velocities and accelerations at the inner knots are not
    determined: any values at all are taken with some exact solver. *)
Theorem C70_quintic_undetermined : forall c knots P (V A : nat -> R), valid_knots knots P ->
  let n := (length knots - 1)%nat in
  exists solve r, exact_solver solve /\
    set_data6 solve 5 c knots P (V 0%nat) (A 0%nat) (V n) (A n) = Ok (true, r) /\
    forall i, (i <= n)%nat -> let t := nth i knots 0 - nth 0 knots 0 in
      get_position_at_time 5 r t = Ok (nth i P 0) /\
      get_velocity_at_time 5 r t = Ok (V i) /\ get_acceleration_at_time 5 r t = Ok (A i).
Proof.
  intros c knots P V A Hv n. pose proof Hv as (Hlen & Hi & LP & Hsm). pose proof (diffs_length knots) as LD.
  set (f i := hermite5 (nth i (diffs knots) 0) (nth i P 0) (V i) (A i) (nth (i + 1) P 0) (V (i + 1)%nat) (A (i + 1)%nat)).
  assert (HD : positive (diffs knots)) by now apply diffs_positive.
  assert (Hf := fun i (L : (i < n)%nat) => quintic_ok (nth i (diffs knots) 0) (nth i P 0) (V i) (A i)
    (nth (i + 1) P 0) (V (i + 1)%nat) (A (i + 1)%nat) (HD i ltac:(lia))). cbv zeta in Hf.
  destruct (good_of_values 5 n (diffs knots) P (V 0%nat) (A 0%nat) (V n) (A n) f V A) as [G1 G2];
    [lia|reflexivity|reflexivity|reflexivity|reflexivity|exact Hf|].
  set (segs := map f (seq 0 n)) in *. fold n in LD. rewrite <- LD in G1.
  exists (preferring (concat segs)), (holding (splines_of segs (diffs knots))).
  split; [apply preferring_exact|]. split; [apply set_data6_any; auto; rewrite LD; exact G2|].
  intros i L. cbv zeta. rewrite <- (start_knots segs) by lia.
  assert (Hn : (1 <= length (diffs knots))%nat) by lia.
  assert (Sm : (Z.of_nat (length (diffs knots)) < 2 ^ 31)%Z) by lia.
  destruct (Nat.eq_dec i n) as [->|Hne].
  - destruct (last_end 5 (diffs knots) segs ltac:(lia) Hn Sm HD G1 _ eq_refl) as (X1 & X2 & X3).
    rewrite LD in *. rewrite X1, X2, X3. unfold segs. rewrite nth_map_seq by lia.
    destruct (Hf (n - 1)%nat ltac:(lia)) as (_ & _ & _ & _ & E1 & E2 & E3). unfold f.
    rewrite E1, E2, E3. replace (n - 1 + 1)%nat with n by lia. auto.
  - pose proof (start_lt 5 (diffs knots) segs ltac:(lia) Hn HD i (i + 1) ltac:(lia)).
    destruct (half_open 5 (diffs knots) segs ltac:(lia) Hn Sm HD G1 i (start (splines_of segs (diffs knots)) i)
      ltac:(lia) ltac:(lra)) as (-> & -> & ->).
    rewrite Rminus_diag_eq by reflexivity. unfold segs. rewrite nth_map_seq by lia.
    destruct (Hf i ltac:(lia)) as (_ & E1 & E2 & E3 & _). unfold f. now rewrite E1, E2, E3.
Qed.

(** So two exact solvers can disagree. *)
Theorem C70_solver_independent_refuted :
  exists (s1 s2 : solver R) knots P v0 a0 vT aT r1 r2 t, exact_solver s1 /\ exact_solver s2 /\ valid_knots knots P /\
    set_data6 s1 5 c_new knots P v0 a0 vT aT = Ok (true, r1) /\
    set_data6 s2 5 c_new knots P v0 a0 vT aT = Ok (true, r2) /\
    0 < t < duration_of knots /\ velocity 5 r1 t <> velocity 5 r2 t.
Proof.
  pose (knots := [0; 1; 3]). pose (P := [2; 0; 5]).
  pose (V k i := if (i =? 1)%nat then k else 0 : R).
  destruct (C70_quintic_undetermined c_new knots P (V 1) (fun _ => 0) valid_example) as (s1 & r1 & H1 & E1 & K1).
  destruct (C70_quintic_undetermined c_new knots P (V 2) (fun _ => 0) valid_example) as (s2 & r2 & H2 & E2 & K2).
  exists s1, s2, knots, P, 0, 0, 0, 0, r1, r2, 1.
  split; [exact H1|]. split; [exact H2|]. split; [exact valid_example|]. split; [exact E1|]. split; [exact E2|].
  split; [unfold duration_of, knots; cbn; lra|].
  destruct (K1 1%nat ltac:(cbn; lia)) as (_ & V1 & _). destruct (K2 1%nat ltac:(cbn; lia)) as (_ & V2 & _).
  unfold knots in V1, V2. cbn [nth] in V1, V2. rewrite Rminus_0_r in V1, V2.
  unfold velocity. rewrite V1, V2. cbn. lra.
Qed.

(** ** Examples *)

Example C68_example : exact_solver gauss /\ valid_knots [0; 1; 3] [2; 0; 5] /\ valid_knots [0; 1; 3] [2; 3; 5].
Proof.
  split; [exact gauss_exact|]. split; [exact valid_example|].
  destruct valid_example as (A & B & _ & E). split; [exact A|]. split; [exact B|]. split; [reflexivity|exact E].
Qed.

(** A competitor: one straight line through three points. *)
Example C69_competitor_example : competitor [0; 1; 3] [2; 3; 5] 1 1 (fun t => 2 + t) (fun _ => 1) (fun _ => 0).
Proof.
  split; [|split; [|split; reflexivity]].
  - intros t _. split; [|split].
    + apply is_derive_Reals. auto_derive; auto; ring.
    + apply is_derive_Reals. auto_derive; auto.
    + apply continuity_pt_const. intros ? ?. reflexivity.
  - intros [|[|[|i]]] L; cbn in *; try lra. lia.
Qed.
