(** * How far the conditions of setData determine the trajectory, over the reals *)

From Coq Require Import List Reals Lra Lia Bool Arith ZArith.
From Verif Require Import Base Num TimeInst Spline SplineSpec LinSpec SplineProofs
  Container ContainerSpec ContainerProofs SetDataSpec SetDataSys SetDataProofs SetDataExist SetDataTraj SetDataTop.
Import ListNotations.
Local Open Scope R_scope.

(** ** A cubic is determined by position and velocity at its ends *)

Lemma cubic_own_values cs T : length cs = 4%nat -> 0 < T ->
  cs = hermite3 T (poly 3 cs 0) (dpoly 3 cs 0) (poly 3 cs T) (dpoly 3 cs T).
Proof.
  intros L HT. assert (T <> 0) by lra.
  destruct cs as [|a [|b [|e [|f [|? ?]]]]]; try discriminate L.
  unfold hermite3, poly, dpoly; simpl. repeat (apply f_equal2; [field; auto|]). reflexivity.
Qed.

Lemma cubic_accelerations cs T : length cs = 4%nat -> 0 < T ->
  let p0 := poly 3 cs 0 in let v0 := dpoly 3 cs 0 in let p1 := poly 3 cs T in let v1 := dpoly 3 cs T in
  ddpoly 3 cs 0 = 6 * (p1 - p0) / T ^ 2 - (4 * v0 + 2 * v1) / T /\
  ddpoly 3 cs T = (2 * v0 + 4 * v1) / T - 6 * (p1 - p0) / T ^ 2.
Proof.
  intros L HT p0 v0 p1 v1. assert (T <> 0) by lra.
  destruct cs as [|a [|b [|e [|f [|? ?]]]]]; try discriminate L.
  unfold p0, v0, p1, v1, poly, dpoly, ddpoly; simpl. split; field; auto.
Qed.

(** ** The velocities at the knots are determined *)

Lemma smooth_ratio D P V V' : positive D -> V 0%nat = V' 0%nat -> forall k, (k < length D)%nat ->
  (forall i, (i < k)%nat -> smooth_at D P V i /\ smooth_at D P V' i) ->
  exists be, - (1/2) <= be <= 1/2 /\ V k - V' k = be * (V (k + 1)%nat - V' (k + 1)%nat).
Proof.
  intros HD E0. induction k as [|k IH]; intros Hk Hs.
  - exists 0. split; [lra|]. rewrite E0. ring.
  - destruct IH as (be & Hb & E); [lia|intros; apply Hs; lia|].
    destruct (Hs k ltac:(lia)) as [S1 S2]. unfold smooth_at in S1, S2.
    set (A := / nth k D 0) in *. set (B := / nth (k + 1) D 0).
    assert (HA : 0 < A) by (apply Rinv_0_lt_compat, HD; lia).
    assert (HB : 0 < B) by (apply Rinv_0_lt_compat, HD; lia).
    unfold Rdiv in S1, S2. fold A B in S1, S2.
    set (x := V k - V' k) in *. set (y := V (k + 1)%nat - V' (k + 1)%nat) in *.
    replace (S k + 1)%nat with (k + 2)%nat by lia. rewrite <- (Nat.add_1_r k). fold y.
    set (z := V (k + 2)%nat - V' (k + 2)%nat).
    assert (Eq : x * A + 2 * (A + B) * y + B * z = 0) by (unfold x, y, z; lra).
    rewrite E in Eq. set (den := be * A + 2 * A + 2 * B).
    assert (Hden : 2 * B < den) by (unfold den; nra).
    exists (- B / den). split.
    { assert (Hq : 0 < B / den <= 1 / 2).
      { split; [apply Rdiv_lt_0_compat; lra|].
        apply (Rmult_le_reg_r den); [lra|]. unfold Rdiv. rewrite Rmult_assoc, Rinv_l by lra. lra. }
      unfold Rdiv in *. rewrite Ropp_mult_distr_l_reverse. lra. }
    apply (Rmult_eq_reg_r den); [|lra]. unfold Rdiv. field_simplify; [|lra]. unfold den. lra.
Qed.

Lemma smooth_unique D P V V' : positive D -> (1 <= length D)%nat -> V 0%nat = V' 0%nat ->
  V (length D) = V' (length D) ->
  (forall i, (i + 1 < length D)%nat -> smooth_at D P V i /\ smooth_at D P V' i) ->
  forall i, (i <= length D)%nat -> V i = V' i.
Proof.
  intros HD Hn E0 En Hs.
  assert (X : forall k, (k <= length D)%nat -> V (length D - k)%nat = V' (length D - k)%nat).
  { induction k as [|k IH]; intros Hk; [now rewrite Nat.sub_0_r|].
    destruct (smooth_ratio D P V V' HD E0 (length D - S k)%nat ltac:(lia)) as (be & _ & E).
    { intros i Hi. apply Hs. lia. }
    replace (length D - S k + 1)%nat with (length D - k)%nat in E by lia.
    rewrite (IH ltac:(lia)) in E. lra. }
  intros i Hi. replace i with (length D - (length D - i))%nat by lia. apply X. lia.
Qed.

(** ** The cubic segments are determined *)

Lemma good_cubic D P v0 vT segs : positive D -> (1 <= length D)%nat -> segments 3 (length D) segs ->
  good 3 (length D) D P [v0] [vT] segs ->
  exists V, V 0%nat = v0 /\ V (length D) = vT /\
    (forall i, (i + 1 < length D)%nat -> smooth_at D P V i) /\
    segs = map (fun i => hermite3 (nth i D 0) (nth i P 0) (V i) (nth (i + 1) P 0) (V (i + 1)%nat)) (seq 0 (length D)).
Proof.
  intros HD Hn [Ls Hu] ((A1 & A2 & _) & (B1 & B2 & _) & J). set (n := length D) in *.
  assert (Lk : forall i, (i < n)%nat -> length (nth i segs []) = 4%nat).
  { intros i Hi. rewrite Forall_forall in Hu. apply Hu, nth_In. lia. }
  set (V := fun i : nat => if (i =? n)%nat then vT else dpoly 3 (nth i segs []) 0).
  assert (V0 : forall i, (i < n)%nat -> dpoly 3 (nth i segs []) 0 = V i).
  { intros i Hi. unfold V. destruct (Nat.eqb_spec i n); [lia|reflexivity]. }
  assert (V1 : forall i, (i < n)%nat -> dpoly 3 (nth i segs []) (nth i D 0) = V (i + 1)%nat).
  { intros i Hi. destruct (Nat.eq_dec (i + 1) n) as [E|E].
    - unfold V. rewrite E, Nat.eqb_refl. replace i with (n - 1)%nat by lia. exact B2.
    - rewrite <- V0 by lia. now destruct (J i ltac:(lia)) as (_ & _ & E' & _). }
  assert (P0 : forall i, (i < n)%nat -> poly 3 (nth i segs []) 0 = nth i P 0).
  { intros [|i] Hi; [exact A1|]. rewrite <- (Nat.add_1_r i). now destruct (J i ltac:(lia)) as (_ & E & _). }
  assert (P1 : forall i, (i < n)%nat -> poly 3 (nth i segs []) (nth i D 0) = nth (i + 1) P 0).
  { intros i Hi. destruct (Nat.eq_dec (i + 1) n) as [E|E].
    - rewrite E. replace i with (n - 1)%nat by lia. exact B1.
    - now destruct (J i ltac:(lia)) as (E' & _). }
  exists V. split; [rewrite <- V0 by lia; exact A2|]. split; [unfold V; now rewrite Nat.eqb_refl|]. split.
  - intros i Hi. unfold smooth_at.
    destruct (cubic_accelerations (nth i segs []) (nth i D 0) (Lk i ltac:(lia)) (HD i ltac:(lia))) as [_ E1].
    destruct (cubic_accelerations (nth (i + 1) segs []) (nth (i + 1) D 0) (Lk (i + 1)%nat ltac:(lia)) (HD (i + 1)%nat ltac:(lia))) as [E2 _].
    destruct (J i Hi) as (_ & _ & _ & Ea). rewrite E1, E2 in Ea.
    rewrite !V0, !V1, !P0, !P1 in Ea by lia. rewrite <- !Nat.add_assoc in Ea. exact Ea.
  - apply (nth_ext _ _ [] []); [now rewrite map_length, seq_length|]. intros i Hi. rewrite Ls in Hi.
    rewrite nth_map_seq by exact Hi.
    rewrite (cubic_own_values (nth i segs []) (nth i D 0) (Lk i Hi) (HD i ltac:(lia))).
    now rewrite V0, V1, P0, P1 by lia.
Qed.

Lemma good_cubic_unique D P v0 vT segs segs' : positive D -> (1 <= length D)%nat ->
  segments 3 (length D) segs -> segments 3 (length D) segs' ->
  good 3 (length D) D P [v0] [vT] segs -> good 3 (length D) D P [v0] [vT] segs' -> segs = segs'.
Proof.
  intros HD Hn H1 H2 G1 G2.
  destruct (good_cubic D P v0 vT segs HD Hn H1 G1) as (V & A0 & An & As & ->).
  destruct (good_cubic D P v0 vT segs' HD Hn H2 G2) as (V' & B0 & Bn & Bs & ->).
  pose proof (smooth_unique D P V V' HD Hn ltac:(congruence) ltac:(congruence)
    (fun i Hi => conj (As i Hi) (Bs i Hi))) as E.
  apply map_ext_in. intros i Hi. apply in_seq in Hi. now rewrite !E by lia.
Qed.

(** ** An exact solver may return any solution *)

Definition preferring (x : list R) : solver R :=
  fun n A b =>
    if list_eq_dec Req_EM_T (mat_vec A x) b then
      if Nat.eq_dec (length x) n then x else gauss n A b
    else gauss n A b.

Lemma preferring_exact x : exact_solver (preferring x).
Proof.
  intros n A b HA Hb Hx. unfold preferring.
  destruct (list_eq_dec Req_EM_T (mat_vec A x) b) as [E|_]; [|now apply gauss_exact].
  destruct (Nat.eq_dec (length x) n) as [L|_]; [auto|now apply gauss_exact].
Qed.

Lemma chunks_of_concat w : forall n (segs : list (list R)), length segs = n -> Forall (fun r => length r = w) segs ->
  chunks w n (concat segs) = segs.
Proof.
  intros n segs L Hu. revert n L. induction Hu as [|r segs Hr Hu IH]; intros n <-; [reflexivity|].
  cbn [length chunks concat]. rewrite firstn_app, skipn_app, Hr, Nat.sub_diag. cbn [firstn skipn].
  rewrite app_nil_r, firstn_all2, skipn_all2 by lia. cbn [app]. now rewrite IH.
Qed.

(** With a suitable exact solver the container holds any good segments. *)
Lemma set_data6_any c knots P v0 a0 vT aT segs o : valid_knots knots P ->
  o = 5%nat \/ (o = 4%nat /\ (3 <= length knots)%nat) -> segments o (length (diffs knots)) segs ->
  good o (length (diffs knots)) (diffs knots) P [v0; a0] [vT; aT] segs ->
  set_data6 (preferring (concat segs)) o c knots P v0 a0 vT aT = Ok (true, holding (splines_of segs (diffs knots))).
Proof.
  intros (Hlen & Hi & LP & Hsm) Ho [Ls Hu] Hg.
  rewrite diffs_length in *. set (n := (length knots - 1)%nat) in *. assert (Ln : length knots = (n + 1)%nat) by lia.
  assert (Ho5 : (1 <= o <= 5)%nat) by lia.
  destruct (sizes o n knots ltac:(lia) ltac:(lia) Ln Hsm) as (S1 & S2 & S3 & _ & S5).
  destruct (solve_and_store_system o n knots P [v0; a0] [vT; aT] ltac:(lia) ltac:(lia) Ln Hi ltac:(lia))
    as (A & b & HA & Lb & Hm & Hr).
  assert (Lc : length (concat segs) = (n * (o + 1))%nat) by (rewrite (concat_length_uniform (o + 1)); auto).
  assert (Ex : preferring (concat segs) (n * (o + 1))%nat A b = concat segs).
  { unfold preferring. destruct (list_eq_dec Req_EM_T (mat_vec A (concat segs)) b) as [_|Hne];
      [|exfalso; apply Hne, Hm; [now split|exact Hg]].
    destruct (Nat.eq_dec (length (concat segs)) (n * (o + 1))); [reflexivity|contradiction]. }
  unfold set_data6. rewrite S1, S2, S3, S5.
  destruct (Z.ltb_spec (Z.of_nat n) 1); [lia|].
  destruct (Z.ltb_spec (Z.of_nat (n * (o + 1))) (Z.of_nat (4 * n + 2))); [destruct Ho as [->|[-> H3]]; lia|].
  specialize (Hr (preferring (concat segs)) c). rewrite Ex in Hr. specialize (Hr Lc).
  rewrite chunks_of_concat in Hr by auto.
  rewrite sys_conds_length in Hr by (simpl; lia). cbn [length] in Hr.
  replace (4 * (n - 1) + 2 * (2 + 1))%nat with (4 * n + 2)%nat in Hr by lia. exact Hr.
Qed.
