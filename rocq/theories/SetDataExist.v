(** * Existence of the trajectories setData looks for, over the reals *)

From Coq Require Import List Reals Lra Lia Bool Arith ZArith.
From Verif Require Import Base Num TimeInst Spline SplineSpec LinSpec SplineProofs
  Container ContainerSpec ContainerProofs SetDataSpec SetDataSys SetDataProofs.
Import ListNotations.
Local Open Scope R_scope.

(** ** One segment *)

Definition cubic (o : nat) (T p0 v0 p1 v1 : R) : list R := repeat 0 (o - 3) ++ hermite3 T p0 v0 p1 v1.

Lemma cubic_ok o T p0 v0 p1 v1 : (3 <= o <= 5)%nat -> 0 < T ->
  let cs := cubic o T p0 v0 p1 v1 in
  length cs = (o + 1)%nat /\
  poly o cs 0 = p0 /\ dpoly o cs 0 = v0 /\
  ddpoly o cs 0 = 6 * (p1 - p0) / T ^ 2 - (4 * v0 + 2 * v1) / T /\
  poly o cs T = p1 /\ dpoly o cs T = v1 /\
  ddpoly o cs T = (2 * v0 + 4 * v1) / T - 6 * (p1 - p0) / T ^ 2.
Proof.
  intros Ho HT cs. assert (T <> 0) by lra. unfold cs, cubic, hermite3.
  orders o; unfold poly, dpoly, ddpoly; simpl; repeat split; field; auto.
Qed.

Lemma quartic_ok T p0 v0 a0 p1 v1 a1 : 0 < T ->
  6 * T * (v0 + v1) + T ^ 2 * (a0 - a1) = 12 * (p1 - p0) ->
  let cs := hermite4 T p0 v0 a0 p1 v1 in
  length cs = 5%nat /\
  poly 4 cs 0 = p0 /\ dpoly 4 cs 0 = v0 /\ ddpoly 4 cs 0 = a0 /\
  poly 4 cs T = p1 /\ dpoly 4 cs T = v1 /\ ddpoly 4 cs T = a1.
Proof.
  intros HT E cs. assert (T <> 0) by lra.
  assert (Ea : a1 = a0 - (12 * (p1 - p0) - 6 * T * (v0 + v1)) / T ^ 2) by (rewrite <- E; field; auto).
  unfold cs, hermite4, poly, dpoly, ddpoly; simpl; repeat split; try (field; auto).
  rewrite Ea. field. auto.
Qed.

Lemma quintic_ok T p0 v0 a0 p1 v1 a1 : 0 < T ->
  let cs := hermite5 T p0 v0 a0 p1 v1 a1 in
  length cs = 6%nat /\
  poly 5 cs 0 = p0 /\ dpoly 5 cs 0 = v0 /\ ddpoly 5 cs 0 = a0 /\
  poly 5 cs T = p1 /\ dpoly 5 cs T = v1 /\ ddpoly 5 cs T = a1.
Proof.
  intros HT cs. assert (T <> 0) by lra.
  unfold cs, hermite5, poly, dpoly, ddpoly; simpl; repeat split; field; auto.
Qed.

(** ** Sequences of segments *)

Lemma nth_map_seq {A} (f : nat -> A) n i d : (i < n)%nat -> nth i (map f (seq 0 n)) d = f i.
Proof.
  intros L. rewrite (nth_indep _ d (f 0%nat)) by (rewrite map_length, seq_length; lia).
  rewrite map_nth, seq_nth by lia. reflexivity.
Qed.

Lemma segments_map o n f : (forall i, (i < n)%nat -> length (f i) = (o + 1)%nat) ->
  segments o n (map f (seq 0 n)).
Proof.
  intros H. split; [now rewrite map_length, seq_length|].
  apply Forall_forall. intros r Hr. apply in_map_iff in Hr as (i & <- & Hi). apply in_seq in Hi. apply H. lia.
Qed.

Definition positive (D : list R) : Prop := forall i, (i < length D)%nat -> 0 < nth i D 0.

(** Segments that meet given values, velocities and accelerations at both ends. *)
Lemma good_of_values o n D P v0 a0 vT aT (f : nat -> list R) (V A : nat -> R) : (1 <= n)%nat ->
  V 0%nat = v0 -> A 0%nat = a0 -> V n = vT -> A n = aT ->
  (forall i, (i < n)%nat -> length (f i) = (o + 1)%nat /\
     poly o (f i) 0 = nth i P 0 /\ dpoly o (f i) 0 = V i /\ ddpoly o (f i) 0 = A i /\
     poly o (f i) (nth i D 0) = nth (i + 1) P 0 /\ dpoly o (f i) (nth i D 0) = V (i + 1)%nat /\
     ddpoly o (f i) (nth i D 0) = A (i + 1)%nat) ->
  segments o n (map f (seq 0 n)) /\ good o n D P [v0; a0] [vT; aT] (map f (seq 0 n)).
Proof.
  intros Hn <- <- <- <- H. split; [apply segments_map; intros i Hi; apply (H i Hi)|].
  split; [|split].
  - rewrite nth_map_seq by lia. destruct (H 0%nat ltac:(lia)) as (_ & B1 & B2 & B3 & _). cbn. auto.
  - rewrite nth_map_seq by lia. destruct (H (n - 1)%nat ltac:(lia)) as (_ & _ & _ & _ & B1 & B2 & B3).
    replace (n - 1 + 1)%nat with n in * by lia. cbn. auto.
  - intros i Hi. rewrite !nth_map_seq by lia.
    destruct (H i ltac:(lia)) as (_ & _ & _ & _ & B1 & B2 & B3).
    destruct (H (i + 1)%nat ltac:(lia)) as (_ & C1 & C2 & C3 & _).
    repeat split; congruence.
Qed.

Definition pick (n : nat) (x0 xT : R) (i : nat) : R :=
  if (i =? 0)%nat then x0 else if (i =? n)%nat then xT else 0.

Lemma pick_0 n x0 xT : pick n x0 xT 0 = x0.
Proof. reflexivity. Qed.
Lemma pick_n n x0 xT : (1 <= n)%nat -> pick n x0 xT n = xT.
Proof. intros. unfold pick. destruct (Nat.eqb_spec n 0); [lia|]. now rewrite Nat.eqb_refl. Qed.

Lemma exists6_5 n D P v0 a0 vT aT : (1 <= n)%nat -> length D = n -> positive D ->
  exists segs, segments 5 n segs /\ good 5 n D P [v0; a0] [vT; aT] segs.
Proof.
  intros Hn LD HD.
  exists (map (fun i => hermite5 (nth i D 0) (nth i P 0) (pick n v0 vT i) (pick n a0 aT i)
    (nth (i + 1) P 0) (pick n v0 vT (i + 1)) (pick n a0 aT (i + 1))) (seq 0 n)).
  apply good_of_values with (V := pick n v0 vT) (A := pick n a0 aT); auto using pick_n.
  intros i Hi. apply quintic_ok. apply HD. lia.
Qed.

(** *** Order 4 *)

Definition compat (D P : list R) (V A : nat -> R) (i : nat) : Prop :=
  6 * nth i D 0 * (V i + V (i + 1)%nat) + nth i D 0 ^ 2 * (A i - A (i + 1)%nat) = 12 * (nth (i + 1) P 0 - nth i P 0).

Definition upd (f : nat -> R) (k : nat) (x : R) (i : nat) : R := if (i =? k)%nat then x else f i.

Lemma upd_same f k x : upd f k x k = x.
Proof. unfold upd. now rewrite Nat.eqb_refl. Qed.
Lemma upd_other f k x i : i <> k -> upd f k x i = f i.
Proof. intros H. unfold upd. destruct (Nat.eqb_spec i k); [contradiction|reflexivity]. Qed.

Lemma compat_prefix D P v0 a0 k : positive D -> (k <= length D)%nat ->
  exists V A, V 0%nat = v0 /\ A 0%nat = a0 /\ forall i, (i < k)%nat -> compat D P V A i.
Proof.
  intros HD. induction k as [|k IH]; intros Hk.
  - exists (fun _ => v0), (fun _ => a0). split; [reflexivity|]. split; [reflexivity|]. intros; lia.
  - destruct (IH ltac:(lia)) as (V & A & E1 & E2 & H).
    set (h := nth k D 0). assert (Hh : 0 < h) by (apply HD; lia).
    set (s := A k + (6 * h * V k - 12 * (nth (k + 1) P 0 - nth k P 0)) / h ^ 2).
    exists (upd V (k + 1) 0), (upd A (k + 1) s).
    split; [rewrite upd_other by lia; exact E1|]. split; [rewrite upd_other by lia; exact E2|].
    intros i Hi. unfold compat. destruct (Nat.eq_dec i k) as [->|Hne].
    + rewrite !upd_same, !upd_other by lia. fold h. unfold s. field. lra.
    + rewrite !upd_other by lia. apply H. lia.
Qed.

Lemma compat_all D P v0 a0 vT aT n : positive D -> length D = n -> (2 <= n)%nat ->
  exists V A, V 0%nat = v0 /\ A 0%nat = a0 /\ V n = vT /\ A n = aT /\
    forall i, (i < n)%nat -> compat D P V A i.
Proof.
  intros HD LD Hn. destruct (compat_prefix D P v0 a0 (n - 2) HD ltac:(lia)) as (V & A & E1 & E2 & H).
  set (k := (n - 2)%nat) in *. assert (En : n = (k + 2)%nat) by lia.
  set (h1 := nth k D 0). set (h2 := nth (k + 1) D 0).
  assert (H1 : 0 < h1) by (apply HD; lia). assert (H2 : 0 < h2) by (apply HD; lia).
  set (r1 := 12 * (nth (k + 1) P 0 - nth k P 0) - 6 * h1 * V k - h1 ^ 2 * A k).
  set (r2 := 12 * (nth (k + 2) P 0 - nth (k + 1) P 0) - 6 * h2 * vT + h2 ^ 2 * aT).
  set (det := 6 * h1 * h2 ^ 2 + 6 * h2 * h1 ^ 2).
  assert (Hdet : det <> 0).
  { unfold det. pose proof (Rmult_lt_0_compat _ _ H1 H2). simpl. nra. }
  set (u := (r1 * h2 ^ 2 + r2 * h1 ^ 2) / det). set (s := (6 * h1 * r2 - 6 * h2 * r1) / det).
  exists (upd (upd V (k + 1) u) n vT), (upd (upd A (k + 1) s) n aT).
  split; [rewrite !upd_other by lia; exact E1|]. split; [rewrite !upd_other by lia; exact E2|].
  split; [apply upd_same|]. split; [apply upd_same|].
  intros i Hi. unfold compat.
  assert (Hi' : (i < k \/ i = k \/ i = k + 1)%nat) by lia. destruct Hi' as [Hi'|[->| ->]].
  - rewrite !upd_other by lia. apply H. exact Hi'.
  - rewrite (upd_other _ n _ k), (upd_other _ n _ (k + 1)), (upd_other _ n _ k), (upd_other _ n _ (k + 1)) by lia.
    rewrite !upd_same, !upd_other by lia. fold h1.
    assert (E : 6 * h1 * u - h1 ^ 2 * s = r1) by (unfold u, s, det in *; field; auto).
    unfold r1 in E. lra.
  - replace (k + 1 + 1)%nat with n by lia. rewrite !upd_same.
    rewrite (upd_other _ n _ (k + 1)), (upd_other _ n _ (k + 1)) by lia. rewrite !upd_same. fold h2.
    replace (nth n P 0) with (nth (k + 2) P 0) by (f_equal; lia).
    assert (E : 6 * h2 * u + h2 ^ 2 * s = r2) by (unfold u, s, det in *; field; auto).
    unfold r2 in E. lra.
Qed.

Lemma exists6_4 n D P v0 a0 vT aT : (2 <= n)%nat -> length D = n -> positive D ->
  exists segs, segments 4 n segs /\ good 4 n D P [v0; a0] [vT; aT] segs.
Proof.
  intros Hn LD HD. destruct (compat_all D P v0 a0 vT aT n HD LD Hn) as (V & A & E1 & E2 & E3 & E4 & H).
  exists (map (fun i => hermite4 (nth i D 0) (nth i P 0) (V i) (A i) (nth (i + 1) P 0) (V (i + 1)%nat)) (seq 0 n)).
  apply good_of_values with (V := V) (A := A); auto; [lia|].
  intros i Hi. apply quartic_ok; [apply HD; lia|]. apply (H i Hi).
Qed.

(** *** Four arguments: the cubic spline *)

(** Equal accelerations at the knot after segment [i]. *)
Definition smooth_at (D P : list R) (V : nat -> R) (i : nat) : Prop :=
  (2 * V i + 4 * V (i + 1)%nat) / nth i D 0 - 6 * (nth (i + 1) P 0 - nth i P 0) / nth i D 0 ^ 2 =
  6 * (nth (i + 2) P 0 - nth (i + 1) P 0) / nth (i + 1) D 0 ^ 2 - (4 * V (i + 1)%nat + 2 * V (i + 2)%nat) / nth (i + 1) D 0.

(** Forward elimination: the velocity before the last is an affine function of the
    last one, with a slope of at most 1/2. *)
Lemma smooth_prefix D P v0 k : positive D -> (k < length D)%nat ->
  exists al be, - (1/2) <= be <= 1/2 /\
    forall w, exists V, V 0%nat = v0 /\ V k = al + be * w /\ V (k + 1)%nat = w /\
      forall i, (i < k)%nat -> smooth_at D P V i.
Proof.
  intros HD. induction k as [|k IH]; intros Hk.
  - exists v0, 0. split; [lra|]. intros w. exists (upd (fun _ => v0) 1 w).
    split; [reflexivity|]. split; [cbn; lra|]. split; [reflexivity|]. intros; lia.
  - destruct (IH ltac:(lia)) as (al & be & Hb & H).
    set (h1 := nth k D 0). set (h2 := nth (k + 1) D 0).
    assert (H1 : 0 < h1) by (apply HD; lia). assert (H2 : 0 < h2) by (apply HD; lia).
    set (A := / h1). set (B := / h2).
    assert (HA : 0 < A) by now apply Rinv_0_lt_compat. assert (HB : 0 < B) by now apply Rinv_0_lt_compat.
    set (r := 3 * (nth (k + 1) P 0 - nth k P 0) * A ^ 2 + 3 * (nth (k + 2) P 0 - nth (k + 1) P 0) * B ^ 2).
    set (den := be * A + 2 * A + 2 * B).
    assert (Hden : 2 * B < den) by (unfold den; nra).
    exists ((r - al * A) / den), (- B / den).
    split.
    { assert (Hq : 0 < B / den <= 1 / 2).
      { split; [apply Rdiv_lt_0_compat; lra|].
        apply (Rmult_le_reg_r den); [lra|]. unfold Rdiv. rewrite Rmult_assoc, Rinv_l by lra. lra. }
      unfold Rdiv in *. rewrite Ropp_mult_distr_l_reverse. lra. }
    intros w. destruct (H ((r - al * A) / den + - B / den * w)) as (V & E1 & E2 & E3 & HV).
    set (u := (r - al * A) / den + - B / den * w) in *.
    exists (upd V (k + 2) w).
    split; [rewrite upd_other by lia; exact E1|].
    split; [rewrite upd_other by lia; rewrite <- E3; f_equal; lia|].
    split; [replace (S k + 1)%nat with (k + 2)%nat by lia; apply upd_same|].
    intros i Hi. unfold smooth_at. destruct (Nat.eq_dec i k) as [->|Hne].
    + rewrite upd_same, !upd_other by lia. fold h1 h2. rewrite E2, E3.
      assert (Eu : u * den = r - al * A - B * w) by (unfold u; field; lra).
      assert (Ek : (al + be * u) * A + 2 * (A + B) * u + B * w = r) by (unfold den in Eu; lra).
      unfold Rdiv. rewrite <- !pow_inv. fold A B. unfold r in Ek. lra.
    + rewrite !upd_other by lia. apply HV. lia.
Qed.

Lemma exists4 o n D P v0 vT : (3 <= o <= 5)%nat -> (1 <= n)%nat -> length D = n -> positive D ->
  exists segs, segments o n segs /\ good o n D P [v0] [vT] segs.
Proof.
  intros Ho Hn LD HD.
  destruct (smooth_prefix D P v0 (n - 1) HD ltac:(lia)) as (al & be & _ & H).
  destruct (H vT) as (V & E1 & _ & E3 & HV). replace (n - 1 + 1)%nat with n in E3 by lia.
  set (f i := cubic o (nth i D 0) (nth i P 0) (V i) (nth (i + 1) P 0) (V (i + 1)%nat)).
  assert (Hf := fun i (Hi : (i < n)%nat) =>
    cubic_ok o (nth i D 0) (nth i P 0) (V i) (nth (i + 1) P 0) (V (i + 1)%nat) Ho (HD i ltac:(lia))).
  cbv zeta in Hf. fold (f 0%nat) in Hf.
  exists (map f (seq 0 n)). split; [apply segments_map; intros i Hi; apply (Hf i Hi)|].
  split; [|split].
  - rewrite nth_map_seq by lia. destruct (Hf 0%nat ltac:(lia)) as (_ & B1 & B2 & _). cbn [endpoint].
    split; [exact B1|]. split; [rewrite <- E1; exact B2|exact I].
  - rewrite nth_map_seq by lia. destruct (Hf (n - 1)%nat ltac:(lia)) as (_ & _ & _ & _ & B1 & B2 & _).
    unfold f. replace (n - 1 + 1)%nat with n in * by lia. cbn [endpoint].
    split; [exact B1|]. split; [rewrite <- E3; exact B2|exact I].
  - intros i Hi. rewrite !nth_map_seq by lia. unfold f.
    destruct (Hf i ltac:(lia)) as (_ & _ & _ & _ & B1 & B2 & B3).
    destruct (Hf (i + 1)%nat ltac:(lia)) as (_ & C1 & C2 & C3 & _).
    split; [exact B1|]. split; [exact C1|]. split; [congruence|].
    rewrite B3, C3. pose proof (HV i ltac:(lia)) as Hs. unfold smooth_at in Hs.
    replace (i + 1 + 1)%nat with (i + 2)%nat by lia. exact Hs.
Qed.
