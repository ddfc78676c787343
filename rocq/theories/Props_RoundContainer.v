(** * C102: spline containers in double precision *)

From Coq Require Import List Bool Arith NArith ZArith Reals Lra Lia.
From Flocq Require Import Core IEEE754.BinarySingleNaN.
From Verif Require Import Base TimeOrder TimeB64 TimeInst Num NumB64 HermiteB64 HermiteErr Spline SplineSpec SplineProofs SplineErr
  Container ContainerSpec ContainerProofs SplineCurves Props_RoundSpline.
Import ListNotations.
Local Open Scope R_scope.

Local Notation u := (bpow radix2 (-53)).
Local Notation rnd := (round radix2 (SpecFloat.fexp 53 1024) ZnearestE).

(** One rounding of a number of at most three times the scale. *)
Lemma op_err v L : middling L -> Rabs v <= 3 * L -> Rabs (rnd v) < bpow radix2 1024 /\ Rabs (rnd v - v) <= 4 * u * L.
Proof.
  intros HL Hv. pose proof (middling_pos _ HL) as P.
  assert (Hk : Rabs (v - v) <= 0 * u * L) by (replace (v - v) with 0 by ring; rewrite Rabs_R0; lra).
  destruct (near_rnd v v 0 3 L HL Hk Hv ltac:(lra) ltac:(lra)) as [A B]. split; [exact A|].
  eapply Rle_trans; [exact B|]. apply Rmult_le_compat_r; [lra|]. apply Rmult_le_compat_r; [apply bpow_ge_0|lra].
Qed.

Lemma restrict_neg x d : x <= 0 -> restrict x d = restrict 0 d.
Proof. intros H. unfold restrict, Rmax, Rmin. repeat destruct Rle_dec; lra. Qed.

Lemma sub_small (x y : b64) L : middling L -> is_finite x = true -> is_finite y = true -> Rabs (B2R x - B2R y) <= 3 * L ->
  is_finite (nsub x y) = true /\ Rabs (B2R (nsub x y) - (B2R x - B2R y)) <= 4 * u * L.
Proof.
  intros HL Fx Fy H. destruct (op_err _ L HL H) as [A B].
  destruct (val_sub_rnd x y _ _ (finite_val x Fx) (finite_val y Fy) A) as [F E]. split; [exact F|]. now rewrite E.
Qed.

Lemma add_small (x y : b64) L : middling L -> is_finite x = true -> is_finite y = true -> Rabs (B2R x + B2R y) <= 3 * L ->
  is_finite (nadd x y) = true /\ Rabs (B2R (nadd x y) - (B2R x + B2R y)) <= 4 * u * L.
Proof.
  intros HL Fx Fy H. destruct (op_err _ L HL H) as [A B].
  destruct (val_add_rnd x y _ _ (finite_val x Fx) (finite_val y Fy) A) as [F E]. split; [exact F|]. now rewrite E.
Qed.

(** A usable spline: the duration is finite and positive. *)
Definition lasting (s : spline b64) : Prop := is_finite (s_duration s) = true /\ 0 < B2R (s_duration s).

Lemma total_cons (s : spline R) l : total (s :: l) = s_duration s + total l.
Proof. reflexivity. Qed.

Lemma total_nonneg l : Forall lasting l -> 0 <= total (map real_spline l).
Proof.
  induction 1 as [|s l [_ Hs] _ IH]; [unfold total; simpl; lra|]. cbn [map]. rewrite total_cons.
  change (s_duration (real_spline s)) with (B2R (s_duration s)). lra.
Qed.

Section Loop.
Variables (L : R) (t : b64).
Hypotheses (HL : middling L) (Ft : is_finite t = true) (Ht : Rabs (B2R t) <= L).

Let e := 4 * u * L.

Lemma e_pos : 0 < e.
Proof. unfold e. pose proof (middling_pos _ HL). pose proof (bpow_gt_0 radix2 (-53)). apply Rmult_lt_0_compat; [lra|exact H]. Qed.

Lemma e_many k : 0 <= k <= 4294967296 -> k * e <= / 100 * L.
Proof.
  intros Hk. unfold e. pose proof (middling_pos _ HL). rewrite u_value.
  apply Rle_trans with (4294967296 * (4 * / 9007199254740992 * L)); [|lra].
  apply Rmult_le_compat_r; lra.
Qed.

Lemma loop_err : forall l k i (off : b64) OFF, l <> [] -> Forall lasting l -> is_finite off = true ->
  Rabs (B2R off - OFF) <= INR k * e -> 0 <= OFF -> OFF + total (map real_spline l) <= L -> INR k + INR (length l) <= 2147483648 ->
  (k = 0%nat /\ B2R off = 0 /\ OFF = 0) \/ B2R off - 2 * e <= B2R t ->
  exists n off' s t', active_loop l i off t = ((i + Z.of_nat n)%Z, off') /\ nth_error l n = Some s /\
    is_finite (nsub t off') = true /\ Rabs (t' - B2R t) <= (INR (k + n) + 2) * e /\
    ((k + n = 0)%nat \/ start (map real_spline l) n <= t' - OFF) /\
    (t' - OFF < start (map real_spline l) (n + 1) \/ (n + 1 = length l)%nat) /\
    restrict (B2R (nsub t off')) (B2R (s_duration s)) = restrict (t' - OFF - start (map real_spline l) n) (B2R (s_duration s)).
Proof.
  pose proof e_pos as Pe. pose proof (middling_pos _ HL) as PL.
  induction l as [|s l IH]; intros k i off OFF Hl Hf Fo Ho H0 Htot Hk Hreach; [congruence|].
  inversion Hf as [|? ? [Fs Hs] Hf']; subst. cbn [map] in Htot. rewrite total_cons in Htot.
  change (s_duration (real_spline s)) with (B2R (s_duration s)) in Htot. pose proof (total_nonneg l Hf') as Hn.
  cbn [length] in Hk. rewrite S_INR in Hk. pose proof (pos_INR k) as Pk. pose proof (pos_INR (length l)) as Pl.
  pose proof (e_many (INR k) ltac:(lra)) as Hke. pose proof (e_many 4 ltac:(lra)) as H4e.
  assert (Bo : Rabs (B2R off) <= 102 / 100 * L).
  { replace (B2R off) with ((B2R off - OFF) + OFF) by ring. eapply Rle_trans; [apply Rabs_triang|].
    rewrite (Rabs_pos_eq OFF) by lra. lra. }
  destruct (sub_small t off L HL Ft Fo) as [Fx Ex].
  { eapply Rle_trans; [apply Rabs_triang|]. rewrite Rabs_Ropp. lra. }
  fold e in Ex. set (x := B2R (nsub t off)) in *.
  (* the answer if the search ends here *)
  assert (Here : x < B2R (s_duration s) \/ l = [] -> exists t', Rabs (t' - B2R t) <= (INR (k + 0) + 2) * e /\
    ((k + 0 = 0)%nat \/ start (map real_spline (s :: l)) 0 <= t' - OFF) /\
    (t' - OFF < start (map real_spline (s :: l)) (0 + 1) \/ (0 + 1 = length (s :: l))%nat) /\
    restrict x (B2R (s_duration s)) = restrict (t' - OFF - start (map real_spline (s :: l)) 0) (B2R (s_duration s))).
  { intros Hend. rewrite Nat.add_0_r. cbn [map]. rewrite start_0.
    replace (start (real_spline s :: map real_spline l) (0 + 1)) with (B2R (s_duration s)).
    2: { change (0 + 1)%nat with 1%nat. rewrite start_cons, start_0. simpl. lra. }
    apply Rabs_le_inv in Ho. apply Rabs_le_inv in Ex.
    destruct (Rle_dec 0 x) as [Hx|Hx].
    - exists (OFF + x). replace (OFF + x - OFF - 0) with x by ring. replace (OFF + x - OFF) with x by ring.
      split; [apply Rabs_le; lra|]. split; [right; lra|]. split; [|reflexivity].
      destruct Hend as [Hend| ->]; [now left|right; reflexivity].
    - destruct Hreach as [(-> & E1 & ->)|Hreach].
      + exists x. replace (x - 0 - 0) with x by ring. replace (x - 0) with x by ring. simpl (INR 0).
        split; [apply Rabs_le; lra|]. split; [now left|]. split; [left; lra|reflexivity].
      + exists OFF. replace (OFF - OFF - 0) with 0 by ring. replace (OFF - OFF) with 0 by ring.
        split; [apply Rabs_le; lra|]. split; [right; lra|]. split; [left; lra|]. apply restrict_neg. lra. }
  cbn [active_loop]. rewrite nltb_finite by assumption. fold x. change (@nltb R _ x (B2R (s_duration s))) with (Rltb x (B2R (s_duration s))).
  destruct (Rltb x (B2R (s_duration s))) eqn:E.
  - apply Rltb_lt in E. destruct (Here (or_introl E)) as (t' & A). exists 0%nat, off, s, t'.
    rewrite Z.add_0_r. split; [reflexivity|]. split; [reflexivity|]. split; [exact Fx|]. exact A.
  - apply Rltb_ge in E. destruct l as [|b l'].
    + destruct (Here (or_intror eq_refl)) as (t' & A). exists 0%nat, off, s, t'.
      cbn [active_loop]. split; [f_equal; lia|]. split; [reflexivity|]. split; [exact Fx|]. exact A.
    + clear Here. set (l := b :: l') in *.
      destruct (add_small off (s_duration s) L HL Fo Fs) as [Fa Ea].
      { eapply Rle_trans; [apply Rabs_triang|]. rewrite (Rabs_pos_eq (B2R (s_duration s))) by lra. lra. }
      fold e in Ea.
      destruct (IH (Datatypes.S k) (i + 1)%Z (nadd off (s_duration s)) (OFF + B2R (s_duration s))) as (n & off' & s' & t' & A1 & A2 & A3 & A4 & A5 & A6 & A7).
      * discriminate.
      * exact Hf'.
      * exact Fa.
      * rewrite S_INR. apply Rabs_le_inv in Ho. apply Rabs_le_inv in Ea. apply Rabs_le. lra.
      * lra.
      * lra.
      * rewrite S_INR. lra.
      * right. apply Rabs_le_inv in Ho. apply Rabs_le_inv in Ea. apply Rabs_le_inv in Ex. lra.
      * exists (Datatypes.S n), off', s', t'. split; [rewrite A1; f_equal; lia|]. split; [exact A2|]. split; [exact A3|].
        replace (k + Datatypes.S n)%nat with (Datatypes.S k + n)%nat by lia. split; [exact A4|].
        cbn [map]. rewrite start_cons. change (s_duration (real_spline s)) with (B2R (s_duration s)).
        replace (t' - OFF - (B2R (s_duration s) + start (map real_spline l) n)) with (t' - (OFF + B2R (s_duration s)) - start (map real_spline l) n) by ring.
        split; [right; destruct A5 as [A5|A5]; [lia|lra]|]. split; [|exact A7].
        change (Datatypes.S n + 1)%nat with (Datatypes.S (n + 1)). rewrite start_cons. change (s_duration (real_spline s)) with (B2R (s_duration s)).
        destruct A6 as [A6|A6]; [left; lra|right; cbn [length]; lia].
Qed.
End Loop.

(** A container with splines that last, fewer than an [int] can count, no longer than [L]. *)
Record sound (L : R) (c : container b64) : Prop := {
  r_scale : bpow radix2 (-900) <= L <= bpow radix2 900;
  r_nonempty : c_splines c <> [];
  r_lasting : Forall lasting (c_splines c);
  r_count : (Z.of_nat (length (c_splines c)) < 2 ^ 31)%Z;
  r_length : total (map real_spline (c_splines c)) <= L
}.

(** Which spline answers and at which of its times, for all three getters at once. *)
Lemma located L (c : container b64) (t : b64) : sound L c -> is_finite t = true -> Rabs (B2R t) <= L ->
  exists n s t' (x : b64), (forall f, get_at f c t = Ok (f s x)) /\ nth_error (c_splines c) n = Some s /\ is_finite x = true /\
    in_charge (map real_spline (c_splines c)) n t' /\ Rabs (t' - B2R t) <= (INR (length (c_splines c)) + 1) * (4 * u * L) /\
    restrict (B2R x) (B2R (s_duration s)) = restrict (t' - start (map real_spline (c_splines c)) n) (B2R (s_duration s)).
Proof.
  intros [HL Hne Hf Hc Htot] Ft Ht. set (l := c_splines c) in *.
  assert (HI : INR (length l) <= 2147483648).
  { rewrite INR_IZR_INZ. change 2147483648 with (IZR (2 ^ 31)). apply IZR_le. lia. }
  destruct (loop_err L t HL Ft Ht l 0 0%Z (nofZ 0 : b64) 0) as (n & off & s & t' & A1 & A2 & A3 & A4 & A5 & A6 & A7); auto.
  - simpl (INR 0). change (B2R (nofZ 0 : b64)) with 0. rewrite Rminus_0_r, Rabs_R0. lra.
  - lra.
  - lra.
  - simpl (INR 0). lra.
  - assert (Hn : (n < length l)%nat) by (apply nth_error_Some; congruence).
    rewrite Rminus_0_r in A5, A6, A7. exists n, s, t', (nsub t off). split.
    { intros f. unfold get_at, active_index_at. fold l. destruct l as [|a l'] eqn:El; [congruence|]. rewrite <- El in *. rewrite A1.
      change (0 + Z.of_nat n)%Z with (Z.of_nat n). destruct (Z.ltb_spec (Z.of_nat n) 0); [lia|].
      rewrite Z.mod_small by lia. unfold c_size. fold l.
      destruct (Z.eqb_spec (Z.of_nat n) (Z.of_nat (length l))); [lia|].
      unfold spline_at. destruct (Z.ltb_spec (Z.of_nat n) 0); [lia|]. rewrite Nat2Z.id. fold l. now rewrite A2. }
    split; [exact A2|]. split; [exact A3|]. split.
    { split; [now rewrite map_length|]. split; [destruct A5 as [A5|A5]; [left; lia|now right]|]. now rewrite map_length. }
    split; [|exact A7]. eapply Rle_trans; [exact A4|]. apply Rmult_le_compat_r; [left; now apply e_pos|].
    simpl (0 + n)%nat. assert (H' : INR (n + 1) <= INR (length l)) by (apply le_INR; lia). rewrite plus_INR in H'. simpl (INR 1) in H'. lra.
Qed.

(** The exact position, velocity and acceleration of the trajectory [l] at time [t]. *)
Definition at_time (p : nat -> list R -> R -> R) (o : nat) (l : list (spline R)) (t v : R) : Prop :=
  exists n s, in_charge l n t /\ nth_error l n = Some s /\ v = p o (s_coefs s) (Rmax 0 (Rmin (t - start l n) (s_duration s))).

Lemma at_time_intro p o (l : list (spline b64)) n s (t' x : R) : in_charge (map real_spline l) n t' -> nth_error l n = Some s ->
  restrict x (B2R (s_duration s)) = restrict (t' - start (map real_spline l) n) (B2R (s_duration s)) ->
  at_time p o (map real_spline l) t' (p o (map B2R (s_coefs s)) (restrict x (B2R (s_duration s)))).
Proof.
  intros Hc Hn ->. exists n, (real_spline s). split; [exact Hc|]. split; [now apply map_nth_error|reflexivity].
Qed.

Theorem C102_position : forall o M T L (c : container b64) (t : b64), sound L c -> Forall (tame o M T) (c_splines c) ->
  is_finite t = true -> Rabs (B2R t) <= L -> bpow radix2 (-900) <= M <= bpow radix2 900 ->
  exists p P t', get_position_at_time o c t = Ok p /\ at_time poly o (map real_spline (c_splines c)) t' P /\
    within (68 * u * M) p P /\ Rabs (t' - B2R t) <= (INR (length (c_splines c)) + 1) * (4 * u * L).
Proof.
  intros o M T L c t Hs Hf Ft Ht HM. destruct (located L c t Hs Ft Ht) as (n & s & t' & x & A & En & Fx & Hc & Hd & Hr).
  exists (position_at o s x), (poly o (map B2R (s_coefs s)) (restrict (B2R x) (B2R (s_duration s)))), t'.
  split; [apply A|]. split; [now apply (at_time_intro poly o _ n)|]. split; [|exact Hd].
  apply (C98_position o M T s x); auto. rewrite Forall_forall in Hf. apply Hf. now apply nth_error_In in En.
Qed.

Theorem C102_velocity : forall o M T L (c : container b64) (t : b64), sound L c -> Forall (tame o M T) (c_splines c) ->
  is_finite t = true -> Rabs (B2R t) <= L -> bpow radix2 (-900) <= 5 * (M / T) <= bpow radix2 900 ->
  exists p P t', get_velocity_at_time o c t = Ok p /\ at_time dpoly o (map real_spline (c_splines c)) t' P /\
    within (68 * u * (5 * (M / T))) p P /\ Rabs (t' - B2R t) <= (INR (length (c_splines c)) + 1) * (4 * u * L).
Proof.
  intros o M T L c t Hs Hf Ft Ht HM. destruct (located L c t Hs Ft Ht) as (n & s & t' & x & A & En & Fx & Hc & Hd & Hr).
  exists (velocity_at o s x), (dpoly o (map B2R (s_coefs s)) (restrict (B2R x) (B2R (s_duration s)))), t'.
  split; [apply A|]. split; [now apply (at_time_intro dpoly o _ n)|]. split; [|exact Hd].
  apply (C98_velocity o M T s x); auto. rewrite Forall_forall in Hf. apply Hf. now apply nth_error_In in En.
Qed.

Theorem C102_acceleration : forall o M T L (c : container b64) (t : b64), sound L c -> Forall (tame o M T) (c_splines c) ->
  is_finite t = true -> Rabs (B2R t) <= L -> bpow radix2 (-900) <= 20 * (M / T ^ 2) <= bpow radix2 900 ->
  exists p P t', get_acceleration_at_time o c t = Ok p /\ at_time ddpoly o (map real_spline (c_splines c)) t' P /\
    within (68 * u * (20 * (M / T ^ 2))) p P /\ Rabs (t' - B2R t) <= (INR (length (c_splines c)) + 1) * (4 * u * L).
Proof.
  intros o M T L c t Hs Hf Ft Ht HM. destruct (located L c t Hs Ft Ht) as (n & s & t' & x & A & En & Fx & Hc & Hd & Hr).
  exists (acceleration_at o s x), (ddpoly o (map B2R (s_coefs s)) (restrict (B2R x) (B2R (s_duration s)))), t'.
  split; [apply A|]. split; [now apply (at_time_intro ddpoly o _ n)|]. split; [|exact Hd].
  apply (C98_acceleration o M T s x); auto. rewrite Forall_forall in Hf. apply Hf. now apply nth_error_In in En.
Qed.

(** If the exact trajectory moves at most with speed [V] the answer is close to its
    position at the very time asked for. *)
Corollary C102_speed : forall o M T L V (c : container b64) (t : b64) P, sound L c -> Forall (tame o M T) (c_splines c) ->
  is_finite t = true -> Rabs (B2R t) <= L -> bpow radix2 (-900) <= M <= bpow radix2 900 ->
  (forall a b A B, at_time poly o (map real_spline (c_splines c)) a A -> at_time poly o (map real_spline (c_splines c)) b B ->
    Rabs (A - B) <= V * Rabs (a - b)) ->
  at_time poly o (map real_spline (c_splines c)) (B2R t) P ->
  exists p, get_position_at_time o c t = Ok p /\
    within (68 * u * M + Rabs V * ((INR (length (c_splines c)) + 1) * (4 * u * L))) p P.
Proof.
  intros o M T L V c t P Hs Hf Ft Ht HM HV HP. destruct (C102_position o M T L c t Hs Hf Ft Ht HM) as (p & P' & t' & A & B & [Fp C] & D).
  exists p. split; [exact A|]. split; [exact Fp|]. replace (B2R p - P) with ((B2R p - P') + (P' - P)) by ring.
  eapply Rle_trans; [apply Rabs_triang|]. apply Rplus_le_compat; [exact C|]. eapply Rle_trans; [apply (HV t' (B2R t)); assumption|].
  apply Rle_trans with (Rabs V * Rabs (t' - B2R t)).
  - apply Rmult_le_compat_r; [apply Rabs_pos|apply RRle_abs].
  - apply Rmult_le_compat_l; [apply Rabs_pos|exact D].
Qed.

(** ** Scalar curves: the time is taken relative to the first knot *)

Lemma shift_le n L d d' : 0 < L -> Rabs d <= (INR n + 1) * (4 * u * L) -> Rabs d' <= 4 * u * L ->
  Rabs (d + d') <= (INR n + 2) * (4 * u * L).
Proof. intros HL H1 H2. eapply Rle_trans; [apply Rabs_triang|]. lra. Qed.

Lemma relative_time L (t m : b64) : middling L -> is_finite t = true -> is_finite m = true -> Rabs (B2R t - B2R m) <= / 2 * L ->
  is_finite (nsub t m) = true /\ Rabs (B2R (nsub t m)) <= L /\ Rabs (B2R (nsub t m) - (B2R t - B2R m)) <= 4 * u * L.
Proof.
  intros HL Ft Fm H. pose proof (middling_pos _ HL) as P. destruct (sub_small t m L HL Ft Fm ltac:(lra)) as [F E].
  split; [exact F|]. split; [|exact E]. pose proof (e_many L HL 1 ltac:(lra)) as H1.
  replace (B2R (nsub t m)) with ((B2R (nsub t m) - (B2R t - B2R m)) + (B2R t - B2R m)) by ring.
  eapply Rle_trans; [apply Rabs_triang|]. lra.
Qed.

Theorem C102_curve : forall o M T L (k : scalar_curve b64) (t : b64), sound L (sc_container k) -> Forall (tame o M T) (c_splines (sc_container k)) ->
  is_finite t = true -> is_finite (sc_min k) = true -> Rabs (B2R t - B2R (sc_min k)) <= / 2 * L -> bpow radix2 (-900) <= M <= bpow radix2 900 ->
  exists p P t', sc_evaluate o k t = Ok (true, p) /\
    at_time poly o (map real_spline (c_splines (sc_container k))) (t' - B2R (sc_min k)) P /\
    within (68 * u * M) p P /\ Rabs (t' - B2R t) <= (INR (length (c_splines (sc_container k))) + 2) * (4 * u * L).
Proof.
  intros o M T L k t Hs Hf Ft Fm Ht HM. pose proof (r_scale _ _ Hs) as HL. destruct (relative_time L t _ HL Ft Fm Ht) as (A & B & C).
  destruct (C102_position o M T L _ _ Hs Hf A B HM) as (p & P & t' & E & Hp & Hw & Hd).
  exists p, P, (t' + B2R (sc_min k)). unfold sc_evaluate. rewrite E. split; [reflexivity|].
  replace (t' + B2R (sc_min k) - B2R (sc_min k)) with t' by ring. split; [exact Hp|]. split; [exact Hw|].
  replace (t' + B2R (sc_min k) - B2R t) with ((t' - B2R (nsub t (sc_min k))) + (B2R (nsub t (sc_min k)) - (B2R t - B2R (sc_min k)))) by ring.
  apply shift_le; [now apply middling_pos|exact Hd|exact C].
Qed.

Theorem C102_curve_derivatives : forall o M T L (k : scalar_curve b64) (old t : b64), sound L (sc_container k) -> Forall (tame o M T) (c_splines (sc_container k)) ->
  is_finite t = true -> is_finite (sc_min k) = true -> Rabs (B2R t - B2R (sc_min k)) <= / 2 * L ->
  (bpow radix2 (-900) <= 5 * (M / T) <= bpow radix2 900 -> exists p P t', sc_evaluate_derivative o k old t 1 = Ok (true, p) /\
    at_time dpoly o (map real_spline (c_splines (sc_container k))) (t' - B2R (sc_min k)) P /\
    within (68 * u * (5 * (M / T))) p P /\ Rabs (t' - B2R t) <= (INR (length (c_splines (sc_container k))) + 2) * (4 * u * L)) /\
  (bpow radix2 (-900) <= 20 * (M / T ^ 2) <= bpow radix2 900 -> exists p P t', sc_evaluate_derivative o k old t 2 = Ok (true, p) /\
    at_time ddpoly o (map real_spline (c_splines (sc_container k))) (t' - B2R (sc_min k)) P /\
    within (68 * u * (20 * (M / T ^ 2))) p P /\ Rabs (t' - B2R t) <= (INR (length (c_splines (sc_container k))) + 2) * (4 * u * L)).
Proof.
  intros o M T L k old t Hs Hf Ft Fm Ht. pose proof (r_scale _ _ Hs) as HL. destruct (relative_time L t _ HL Ft Fm Ht) as (A & B & C).
  split; intros HM;
    [destruct (C102_velocity o M T L _ _ Hs Hf A B HM) as (p & P & t' & E & Hp & Hw & Hd)
    |destruct (C102_acceleration o M T L _ _ Hs Hf A B HM) as (p & P & t' & E & Hp & Hw & Hd)];
    (exists p, P, (t' + B2R (sc_min k)); unfold sc_evaluate_derivative; cbn [Z.eqb Pos.eqb]; rewrite E; split; [reflexivity|];
     replace (t' + B2R (sc_min k) - B2R (sc_min k)) with t' by ring; split; [exact Hp|]; split; [exact Hw|];
     replace (t' + B2R (sc_min k) - B2R t) with ((t' - B2R (nsub t (sc_min k))) + (B2R (nsub t (sc_min k)) - (B2R t - B2R (sc_min k)))) by ring;
     apply shift_le; [now apply middling_pos|exact Hd|exact C]).
Qed.

(** ** The time shift is needed *)

(** Four constant splines that last 1, 2^-53, 1 and 1 and stay at 0, 0, 0 and 1.  At time 2 the
    third spline is still in charge, but the program is already in the fourth one. *)
Definition jump : container b64 :=
  let tiny := ndiv (nofZ 1) (nofZ (2 ^ 53)) in
  let still (d p : b64) := mkSpline d [nofZ 0; p] in
  mkContainer [still (nofZ 1) (nofZ 0); still tiny (nofZ 0); still (nofZ 1) (nofZ 0); still (nofZ 1) (nofZ 1)]
    (nofZ 0) (nofZ 0) (nofZ 3) 0.

Lemma tiny_val : val (ndiv (nofZ 1) (nofZ (2 ^ 53)) : b64) u.
Proof.
  split; [vm_compute; reflexivity|].
  assert (E : B2SF (ndiv (nofZ 1) (nofZ (2 ^ 53)) : b64) = SpecFloat.S754_finite false 4503599627370496 (-105)) by (vm_compute; reflexivity).
  replace (B2R (ndiv (nofZ 1) (nofZ (2 ^ 53)) : b64)) with (SF2R radix2 (B2SF (ndiv (nofZ 1) (nofZ (2 ^ 53)) : b64))) by apply SF2R_B2SF.
  rewrite E. unfold SF2R, F2R. cbn [cond_Zopp Fnum Fexp]. replace (-53)%Z with (52 + -105)%Z by lia. rewrite bpow_plus. reflexivity.
Qed.

Lemma V1 : val (nofZ 1 : b64) 1.
Proof. apply (val_int 1); vm_compute; discriminate. Qed.

Lemma jump_durations : map s_duration (map real_spline (c_splines jump)) = [1; u; 1; 1].
Proof. cbn [jump c_splines map real_spline s_duration]. now rewrite (proj2 V1), (proj2 tiny_val). Qed.

Lemma jump_sound : sound 4 jump.
Proof.
  pose proof (bpow_gt_0 radix2 (-53)) as Pu. pose proof V1 as [F1 E1]. pose proof tiny_val as [Ft Et].
  split.
  - change 4 with (bpow radix2 2). split; apply bpow_le; lia.
  - discriminate.
  - repeat constructor; cbn [s_duration]; try assumption; rewrite ?E1, ?Et; lra.
  - vm_compute. reflexivity.
  - unfold total. rewrite jump_durations. cbn [fold_right]. rewrite u_value. lra.
Qed.

Lemma jump_tame : Forall (tame 1 1 1) (c_splines jump).
Proof.
  pose proof V1 as [F1 E1]. pose proof tiny_val as [Ft Et]. pose proof (bpow_gt_0 radix2 (-53)) as Pu.
  assert (S1 : bpow radix2 (-150) <= 1 <= bpow radix2 150) by (change 1 with (bpow radix2 0); split; apply bpow_le; lia).
  assert (Z : Rabs (B2R (nofZ 0 : b64)) = 0) by (change (B2R (nofZ 0 : b64)) with 0; apply Rabs_R0).
  assert (W : forall d p : b64, is_finite d = true -> 0 <= B2R d <= 1 -> is_finite p = true -> Rabs (B2R p) <= 1 ->
    tame 1 1 1 (mkSpline d [nofZ 0; p])).
  { intros d p Fd Hd Fp Hp. split; cbn [s_coefs s_duration]; auto; try lia. intros i c E.
    destruct i as [|[|i]]; cbn in E; [injection E as <-; split; [exact Fp|simpl; lra]|injection E as <-; split; [reflexivity|]|destruct i; discriminate].
    change (B754_zero false) with (nofZ 0 : b64). rewrite Z. simpl. lra. }
  assert (Rabs (B2R (nofZ 1 : b64)) <= 1) by (rewrite E1, Rabs_R1; lra).
  assert (0 <= B2R (nofZ 1 : b64) <= 1) by (rewrite E1; lra).
  assert (0 <= B2R (ndiv (nofZ 1) (nofZ (2 ^ 53)) : b64) <= 1) by (rewrite Et, u_value; lra).
  assert (F0 : is_finite (nofZ 0 : b64) = true) by reflexivity.
  assert (Rabs (B2R (nofZ 0 : b64)) <= 1) by (rewrite Z; lra).
  unfold jump. cbn [c_splines]. apply Forall_cons; [now apply W|]. apply Forall_cons; [now apply W|].
  apply Forall_cons; [now apply W|]. apply Forall_cons; [now apply W|]. apply Forall_nil.
Qed.

Theorem C102_same_time_refuted : exists M T L (c : container b64) (t : b64) P, sound L c /\ Forall (tame 1 M T) (c_splines c) /\
  is_finite t = true /\ Rabs (B2R t) <= L /\ at_time poly 1 (map real_spline (c_splines c)) (B2R t) P /\
  exists p, get_position_at_time 1 c t = Ok p /\ val p 1 /\ P = 0.
Proof.
  assert (V2 : val (nofZ 2 : b64) 2) by (apply (val_int 2); vm_compute; discriminate).
  exists 1, 1, 4, jump, (nofZ 2), 0. split; [apply jump_sound|]. split; [apply jump_tame|]. split; [reflexivity|].
  rewrite (proj2 V2). split; [rewrite Rabs_pos_eq; lra|]. split.
  - exists 2%nat, (real_spline (mkSpline (nofZ 1) [nofZ 0; nofZ 0])). pose proof (bpow_gt_0 radix2 (-53)) as Pu.
    split; [|split; [reflexivity|]].
    + split; [simpl; lia|]. unfold start. rewrite <- !firstn_map, !jump_durations. split; [right|left]; cbn [fold_right firstn Nat.add]; rewrite ?u_value; lra.
    + unfold poly. cbn [real_spline s_coefs map sum_f_R0 nth Nat.sub]. change (B2R (nofZ 0 : b64)) with 0. ring.
  - exists (nofZ 1). split; [|split; [apply V1|reflexivity]].
    assert (E : match get_position_at_time 1 jump (nofZ 2) with Ok p => B2SF p | _ => SpecFloat.S754_nan end = B2SF (nofZ 1 : b64)) by (vm_compute; reflexivity).
    destruct (get_position_at_time 1 jump (nofZ 2)); try (vm_compute in E; discriminate E). f_equal. now apply B2SF_inj.
Qed.

(** The hypotheses are met and the shift here is nothing worse than the bound allows. *)
Example C102_example : exists p P t', get_position_at_time 1 jump (nofZ 2) = Ok p /\ at_time poly 1 (map real_spline (c_splines jump)) t' P /\
  within (68 * u * 1) p P /\ Rabs (t' - 2) <= 5 * (4 * u * 4).
Proof.
  assert (V2 : val (nofZ 2 : b64) 2) by (apply (val_int 2); vm_compute; discriminate).
  destruct (C102_position 1 1 1 4 jump (nofZ 2) jump_sound jump_tame (proj1 V2)) as (p & P & t' & A & B & C & D).
  - rewrite (proj2 V2), Rabs_pos_eq; lra.
  - change 1 with (bpow radix2 0). split; apply bpow_le; lia.
  - exists p, P, t'. rewrite (proj2 V2) in D. replace 5 with (INR (length (c_splines jump)) + 1) by (simpl; lra). auto.
Qed.

(** One straight piece from 0 to 1 in one second never moves faster than 1. *)
Definition straight : container b64 := mkContainer [mkSpline (nofZ 1) [nofZ 1; nofZ 0]] (nofZ 0) (nofZ 0) (nofZ 1) 0.

Example C102_speed_example : sound 1 straight /\ Forall (tame 1 1 1) (c_splines straight) /\
  (forall a b A B, at_time poly 1 (map real_spline (c_splines straight)) a A -> at_time poly 1 (map real_spline (c_splines straight)) b B ->
    Rabs (A - B) <= 1 * Rabs (a - b)).
Proof.
  pose proof V1 as [F1 E1]. assert (Z : B2R (nofZ 0 : b64) = 0) by reflexivity.
  assert (S1 : bpow radix2 (-150) <= 1 <= bpow radix2 150) by (change 1 with (bpow radix2 0); split; apply bpow_le; lia).
  split; [split|split].
  - change 1 with (bpow radix2 0). split; apply bpow_le; lia.
  - discriminate.
  - unfold straight. cbn [c_splines]. apply Forall_cons; [|apply Forall_nil]. split; cbn [s_duration]; [exact F1|rewrite E1; lra].
  - vm_compute. reflexivity.
  - unfold total, straight. cbn [c_splines map real_spline s_duration fold_right]. rewrite E1. lra.
  - unfold straight. cbn [c_splines]. apply Forall_cons; [|apply Forall_nil]. split; cbn [s_coefs s_duration]; auto; try lia.
    + rewrite E1. lra.
    + intros i c E. destruct i as [|[|i]]; cbn in E; [injection E as <-; split; [reflexivity|]|injection E as <-; split; [reflexivity|]|destruct i; discriminate].
      * change (B2R _) with 0. rewrite Rabs_R0. simpl. lra.
      * change (B2R _) with (B2R (nofZ 1 : b64)). rewrite E1, Rabs_R1. simpl. lra.
  - assert (W : forall t v, at_time poly 1 (map real_spline (c_splines straight)) t v -> v = Rmax 0 (Rmin t 1)).
    { intros t v (n & s & Hc & En & ->). unfold straight in *. cbn [c_splines map] in *. destruct n as [|n]; [|destruct n; discriminate En].
      cbn [nth_error] in En. assert (Es : s = real_spline (mkSpline (nofZ 1) [nofZ 1; nofZ 0])) by congruence. subst s. rewrite start_0, Rminus_0_r. unfold real_spline. cbn [s_coefs s_duration map]. rewrite E1, Z.
      unfold poly. cbn [sum_f_R0 nth Nat.sub]. rewrite pow_1. ring. }
    intros a b A B Ha Hb. rewrite (W a A Ha), (W b B Hb). unfold Rmax, Rmin. repeat destruct Rle_dec; unfold Rabs; repeat destruct Rcase_abs; lra.
Qed.
