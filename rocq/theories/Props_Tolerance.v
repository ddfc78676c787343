(** * C118: looking up a coefficient up to a tolerance *)

From Coq Require Import List Bool ZArith Reals Lra Lia Sorted.
From Flocq Require Import Core IEEE754.BinarySingleNaN.
From Verif Require Import Base TimeOrder TimeB64 TimeInst Num NumB64 Manager Tolerance.
Import ListNotations.
Local Open Scope R_scope.

(** ** Specification *)

(** The times of the coefficients increase. *)
Definition ordered {C} (l : list (@node R C)) : Prop :=
  forall i j n m, (i < j)%nat -> nth_error l i = Some n -> nth_error l j = Some m -> n_time n < n_time m.

(** A coefficient near a time. *)
Definition near {C} (t tol : R) (n : @node R C) : Prop := Rabs (n_time n - t) <= tol.

(** ** Exact arithmetic *)

Section Exact.
Context {C : Type}.
Implicit Types (l : list (@node R C)) (n m : @node R C).

Lemma ordered_tail n l : ordered (n :: l) -> ordered l.
Proof. intros H i j a b L A B. apply (H (S i) (S j) a b); [lia|exact A|exact B]. Qed.

Lemma ordered_head n l m : ordered (n :: l) -> In m l -> n_time n < n_time m.
Proof. intros H I. destruct (In_nth_error _ _ I) as (j & E). apply (H 0%nat (S j) n m); [lia|reflexivity|exact E]. Qed.

Lemma nleb_R (a b : R) : nleb a b = true <-> a <= b.
Proof. numR. apply Rleb_le. Qed.

Lemma near_iff t tol n : near t tol n <-> t - tol <= n_time n <= t + tol.
Proof.
  unfold near. split; intros H.
  - apply Rabs_le_inv in H. lra.
  - apply Rabs_le. lra.
Qed.
End Exact.

(** The search finds a coefficient exactly if there is one within the tolerance, and then the earliest of
    these. *)
Theorem C118_exact : forall (C : Type) (l : list (@node R C)) t tol, ordered l ->
  (fst (scan_within l t tol) = true <-> exists n, In n l /\ near t tol n) /\
  (forall n, scan_within l t tol = (true, Some n) -> In n l /\ near t tol n /\ forall m, In m l -> near t tol m -> n_time n <= n_time m) /\
  (fst (scan_within l t tol) = true -> exists n, scan_within l t tol = (true, Some n)).
Proof.
  intros C l t tol. induction l as [|n l IH]; intros O.
  - cbn. split; [split; [discriminate|intros (n & [] & _)]|]. split; [discriminate|discriminate].
  - specialize (IH (ordered_tail _ _ O)). destruct IH as (A & B & D). cbn [scan_within].
    change (t - tol)%num with (t - tol). change (t + tol)%num with (t + tol).
    destruct (nleb (t - tol) (n_time n)) eqn:E1.
    + apply nleb_R in E1. destruct (nleb (n_time n) (t + tol)) eqn:E2.
      * apply nleb_R in E2. assert (Nn : near t tol n) by (apply near_iff; lra). cbn [fst].
        split; [split; [intros _; exists n; split; [now left|exact Nn]|reflexivity]|].
        split; [|intros _; now exists n]. intros m Em. assert (m = n) by congruence. subst m. split; [now left|]. split; [exact Nn|].
        intros m [->|I] _; [apply Rle_refl|]. left. now apply (ordered_head n l).
      * assert (F : n_time n > t + tol) by (apply Rnot_le_gt; intros Q; apply nleb_R in Q; congruence). cbn [fst].
        split; [split; [discriminate|]|split; [discriminate|discriminate]].
        intros (m & [->|I] & Nm); apply near_iff in Nm; [lra|]. pose proof (ordered_head _ _ _ O I). lra.
    + assert (F : n_time n < t - tol) by (apply Rnot_ge_lt; intros Q; apply Rge_le, nleb_R in Q; congruence).
      split; [|split; [|exact D]].
      * rewrite A. split; intros (m & I & Nm); exists m; [split; [now right|exact Nm]|]. destruct I as [->|I]; [apply near_iff in Nm; lra|auto].
      * intros m Em. destruct (B m Em) as (I & Nm & Mn). split; [now right|]. split; [exact Nm|].
        intros k [->|Ik] Nk; [apply near_iff in Nk; lra|auto].
Qed.

(** Whether it finds one or not, it leaves the iterator at the earliest coefficient not before [t - tol], or at the
    end if there is none. *)
Theorem C118_iterator : forall (C : Type) (l : list (@node R C)) t tol, ordered l ->
  (forall n, snd (scan_within l t tol) = Some n -> In n l /\ t - tol <= n_time n /\ forall m, In m l -> t - tol <= n_time m -> n_time n <= n_time m) /\
  (snd (scan_within l t tol) = None -> forall m, In m l -> n_time m < t - tol).
Proof.
  intros C l t tol. induction l as [|n l IH]; intros O; [split; [discriminate|intros _ m []]|].
  specialize (IH (ordered_tail _ _ O)). destruct IH as (A & B). cbn [scan_within].
  change (t - tol)%num with (t - tol). change (t + tol)%num with (t + tol).
  destruct (nleb (t - tol) (n_time n)) eqn:E1.
  - apply nleb_R in E1.
    assert (Q : snd (if nleb (n_time n) (t + tol) then (true, Some n) else (false, Some n)) = Some n) by (destruct (nleb (n_time n) (t + tol)); reflexivity).
    rewrite Q. split; [|discriminate]. intros m Em. assert (m = n) by congruence. subst m. split; [now left|]. split; [exact E1|].
    intros m [->|I] _; [apply Rle_refl|]. left. now apply (ordered_head n l).
  - assert (F : n_time n < t - tol) by (apply Rnot_ge_lt; intros Q; apply Rge_le, nleb_R in Q; congruence). split.
    + intros m Em. destruct (A m Em) as (I & Lm & Mn). split; [now right|]. split; [exact Lm|]. intros k [->|Ik] Lk; [lra|auto].
    + intros En m [->|I]; [exact F|]. now apply B.
Qed.

(** ** Doubles *)

(** Comparison of doubles as the manager's model has it. *)
Lemma tle_leb (x y : b64) : tle x y = nleb x y.
Proof.
  unfold tle. cbn [tnum tlt b64_raw_TimeOps nleb b64_Num]. destruct (is_nan x) eqn:Nx; [destruct x; try discriminate; destruct y; reflexivity|].
  destruct (is_nan y) eqn:Ny; [destruct y; try discriminate; destruct x as [| | |[]]; reflexivity|].
  unfold b64_ltb, Bleb, SpecFloat.SFleb. change (SpecFloat.SFcompare (B2SF x) (B2SF y)) with (Bcompare x y).
  rewrite (compare_rank x y Nx Ny), (compare_rank y x Ny Nx). rewrite (Rcompare_sym (rank x)). now destruct (Rcompare (rank y) (rank x)).
Qed.

Lemma plus_zero (t x : b64) : nleb x (nadd t (B754_zero false)) = nleb x t.
Proof. destruct t as [[]| | |]; reflexivity. Qed.

Lemma minus_zero (t : b64) : nsub t (B754_zero false) = t.
Proof. destruct t as [[]| | |]; reflexivity. Qed.

(** The tolerance insertCoefficient uses by default is zero; then, for any double (also infinities and
    NaN) the search is the one without a tolerance, [scan_at_time]. *)
Theorem C118_default : forall (C : Type) (l : list (@node b64 C)) (t : b64),
  scan_at_time l t = (if fst (scan_within l t (B754_zero false)) then snd (scan_within l t (B754_zero false)) else None).
Proof.
  intros C l t. induction l as [|n l IH]; [reflexivity|]. cbn [scan_at_time scan_within]. rewrite !tle_leb, minus_zero, plus_zero.
  destruct (nleb t (n_time n)); [|exact IH]. now destruct (nleb (n_time n) t).
Qed.

(** A tolerance that is not a number finds nothing. *)
Theorem C118_nan : forall (C : Type) (l : list (@node b64 C)) (t : b64), scan_within l t B754_nan = (false, None).
Proof.
  intros C l t. induction l as [|n l IH]; [reflexivity|]. cbn [scan_within].
  replace (nsub t B754_nan) with (B754_nan : b64) by (now destruct t as [| | |]). exact IH.
Qed.

(** *** Tolerances that are rounded away *)

#[local] Existing Instances NumB64.prec_gt_0_53 NumB64.prec_lt_emax_53.
Local Notation fexp := (SpecFloat.fexp 53 1024).
Local Notation rnd := (round radix2 fexp ZnearestE).

Lemma gap_up u : 0 < u -> generic_format radix2 fexp u -> bpow radix2 (-53) * u < succ radix2 fexp u - u.
Proof.
  intros P F. rewrite succ_eq_pos by lra. pose proof (ulp_FLT_gt radix2 (-1074) 53 u) as Q. rewrite Rabs_pos_eq in Q by lra.
  change (ulp radix2 (FLT_exp (-1074) 53) u) with (ulp radix2 fexp u) in Q. change (Z.opp 53) with (-53)%Z in Q. lra.
Qed.

Lemma gap_down u : 0 < u -> generic_format radix2 fexp u -> bpow radix2 (-54) * u < u - pred radix2 fexp u.
Proof.
  intros P F. assert (E : bpow radix2 (-53) = 2 * bpow radix2 (-54)) by (change (-53)%Z with (1 + -54)%Z; rewrite bpow_plus; reflexivity).
  pose proof (bpow_gt_0 radix2 (-54)) as B. assert (B1 : bpow radix2 (-54) <= / 2) by (change (/ 2) with (bpow radix2 (-1)); apply bpow_le; lia).
  destruct (Req_dec (pred radix2 fexp u) 0) as [Z|Z].
  - rewrite Z. assert (B2 : bpow radix2 (-54) < 1) by (change 1 with (bpow radix2 0); apply bpow_lt; lia). pose proof (Rmult_lt_compat_r u _ _ P B2). lra.
  - pose proof (pred_ge_0 radix2 fexp u P F) as P0.
    pose proof (pred_plus_ulp radix2 fexp u P F) as Q. set (p := pred radix2 fexp u) in *. pose proof (ulp_FLT_gt radix2 (-1074) 53 p) as G. rewrite Rabs_pos_eq in G by lra.
    change (ulp radix2 (FLT_exp (-1074) 53) p) with (ulp radix2 fexp p) in G. change (Z.opp 53) with (-53)%Z in G. set (w := ulp radix2 fexp p) in *.
    rewrite E in G. assert (Ep : p = u - w) by lra. rewrite Ep in G.
    assert (Pw : 0 <= w) by apply ulp_ge_0. pose proof (Rmult_le_compat_r w _ _ Pw B1). lra.
Qed.

Lemma rounded_away u e : 0 < u -> generic_format radix2 fexp u -> Rabs e <= bpow radix2 (-55) * u -> rnd (u + e) = u.
Proof.
  intros P F H. apply Rabs_le_inv in H. pose proof (gap_up u P F) as G1. pose proof (gap_down u P F) as G2.
  assert (E : bpow radix2 (-54) = 2 * bpow radix2 (-55)) by (change (-54)%Z with (1 + -55)%Z; rewrite bpow_plus; reflexivity).
  assert (E' : bpow radix2 (-53) = 4 * bpow radix2 (-55)) by (change (-53)%Z with (2 + -55)%Z; rewrite bpow_plus; reflexivity).
  rewrite E in G2. rewrite E' in G1.
  apply Rle_antisym.
  - apply round_N_le_midp; [typeclasses eauto|exact F|]. assert (0 < bpow radix2 (-55) * u) by (apply Rmult_lt_0_compat; [apply bpow_gt_0|exact P]). lra.
  - apply round_N_ge_midp; [typeclasses eauto|exact F|]. lra.
Qed.

Lemma sum_away (t e : b64) : is_finite t = true -> is_finite e = true -> 0 < B2R t -> Rabs (B2R e) <= bpow radix2 (-55) * B2R t ->
  nadd t e = t /\ nsub t e = t.
Proof.
  intros Ft Fe P H. assert (Fm : generic_format radix2 fexp (B2R t)) by apply generic_format_B2R.
  assert (R1 : rnd (B2R t + B2R e) = B2R t) by now apply rounded_away.
  assert (R2 : rnd (B2R t - B2R e) = B2R t) by (apply rounded_away; [exact P|exact Fm|now rewrite Rabs_Ropp]).
  pose proof (abs_B2R_lt_emax 53 1024 t) as Ov. cbn [nadd nsub b64_Num]. split.
  - pose proof (Bplus_correct 53 1024 _ _ mode_NE t e Ft Fe) as Q. cbn [round_mode] in Q. rewrite R1, Rlt_bool_true in Q by exact Ov. destruct Q as (V & Fi & _).
    apply B2R_inj; [| |exact V]; apply is_finite_strict_B2R; rewrite ?V; lra.
  - pose proof (Bminus_correct 53 1024 _ _ mode_NE t e Ft Fe) as Q. cbn [round_mode] in Q. rewrite R2, Rlt_bool_true in Q by exact Ov. destruct Q as (V & Fi & _).
    apply B2R_inj; [| |exact V]; apply is_finite_strict_B2R; rewrite ?V; lra.
Qed.

(** A tolerance of at most 2^-55 of the time has no effect, even a negative one. *)
Theorem C118_tiny : forall (C : Type) (l : list (@node b64 C)) (t tol : b64), is_finite t = true -> is_finite tol = true -> 0 < B2R t ->
  Rabs (B2R tol) <= bpow radix2 (-55) * B2R t -> scan_within l t tol = scan_within l t (B754_zero false).
Proof.
  intros C l t tol Ft Fe P H. destruct (sum_away t tol Ft Fe P H) as [A B]. induction l as [|n l IH]; [reflexivity|]. cbn [scan_within].
  rewrite A, B, minus_zero, plus_zero. destruct (nleb t (n_time n)); [|exact IH]. reflexivity.
Qed.

(** In exact arithmetic a negative tolerance finds nothing. *)
Theorem C118_negative : forall (C : Type) (l : list (@node R C)) t tol, ordered l -> tol < 0 -> fst (scan_within l t tol) = false.
Proof.
  intros C l t tol O N. destruct (fst (scan_within l t tol)) eqn:E; [|reflexivity]. exfalso.
  apply (proj1 (C118_exact C l t tol O)) in E. destruct E as (n & _ & H). unfold near in H. pose proof (Rabs_pos (n_time n - t)). lra.
Qed.

(** Coefficients at 1, 2 and 4. *)
Definition three_nodes : list (@node R unit) := [Node 0%nat 1 1%N tt; Node 1%nat 2 2%N tt; Node 2%nat 4 3%N tt].

Example C118_example : ordered three_nodes /\ scan_within three_nodes 3 1 = (true, Some (Node 1%nat 2 2%N tt)) /\ fst (scan_within three_nodes 3 (1 / 2)) = false.
Proof.
  assert (O : ordered three_nodes).
  { intros i j n m L. destruct i as [|[|[|i]]], j as [|[|[|j]]]; try lia; cbn; intros A B; try discriminate;
      try (destruct j; discriminate); try (destruct i; discriminate); injection A as <-; injection B as <-; cbn; lra. }
  split; [exact O|]. split.
  - destruct (C118_exact unit three_nodes 3 1 O) as (A & B & D).
    destruct D as (n & E); [apply A; exists (Node 1%nat 2 2%N tt); split; [cbn; auto|apply near_iff; cbn; lra]|].
    destruct (B n E) as (I & Nn & Mn). rewrite E. apply near_iff in Nn.
    destruct I as [<-|[<-|[<-|[]]]]; cbn in *; try lra; [reflexivity|].
    specialize (Mn (Node 1%nat 2 2%N tt) ltac:(auto)). cbn in Mn. assert (2 <= 4) by lra. exfalso.
    assert (Q : 4 <= 2) by (apply Mn; apply near_iff; cbn; lra). lra.
  - destruct (fst (scan_within three_nodes 3 (1 / 2))) eqn:E; [|reflexivity]. exfalso.
    apply (proj1 (C118_exact unit three_nodes 3 (1 / 2) O)) in E. destruct E as (n & I & H). apply near_iff in H.
    destruct I as [<-|[<-|[<-|[]]]]; cbn in H; lra.
Qed.

(** At a time of 2^30 seconds, 2^-25 seconds either way are nothing, and a negative tolerance of that size
    finds the coefficient. *)
Example C118_tiny_example : let t := @B754_finite 53 1024 false 4503599627370496 (-22) eq_refl : b64 in let tol := @B754_finite 53 1024 true 4503599627370496 (-77) eq_refl : b64 in
  B2R t = 2 ^ 30 /\ B2R tol = - / 2 ^ 25 /\ 0 < B2R t /\ Rabs (B2R tol) <= bpow radix2 (-55) * B2R t /\ fst (scan_within [Node 0%nat t 1%N tt] t tol) = true.
Proof.
  cbv zeta.
  assert (A : B2R (@B754_finite 53 1024 false 4503599627370496 (-22) eq_refl) = 2 ^ 30).
  { unfold B2R, F2R. cbn [Fnum Fexp SpecFloat.cond_Zopp bpow]. change (IZR (Zpower_pos radix2 22)) with 4194304. lra. }
  assert (B : B2R (@B754_finite 53 1024 true 4503599627370496 (-77) eq_refl) = - / 2 ^ 25).
  { unfold B2R, F2R. cbn [Fnum Fexp SpecFloat.cond_Zopp bpow]. change (IZR (Zpower_pos radix2 77)) with 151115727451828646838272. change (IZR (Z.opp (Z.pos 4503599627370496))) with (-4503599627370496). cbn [pow]. field. }
  split; [exact A|]. split; [exact B|]. rewrite A, B. split; [lra|]. split.
  - rewrite Rabs_Ropp, Rabs_pos_eq by lra. cbn [bpow]. change (IZR (Zpower_pos radix2 55)) with 36028797018963968. lra.
  - vm_compute. reflexivity.
Qed.
