(** * The three versions of setData, over the reals *)

From Coq Require Import List Reals Lra Lia Bool Arith ZArith.
From Verif Require Import Base Num TimeInst Spline SplineSpec LinSpec SplineProofs
  Container ContainerSpec ContainerProofs SetDataSpec SetDataSys SetDataProofs SetDataExist SetDataTraj.
Import ListNotations.
Local Open Scope R_scope.

Lemma u32_small z : (0 <= z < 2 ^ 32)%Z -> u32 z = z.
Proof. intros H. apply Z.mod_small. exact H. Qed.

(** The sizes computed for [n + 1] knots. *)
Lemma sizes o n (knots : list R) : (1 <= o <= 5)%nat -> (1 <= n)%nat -> length knots = (n + 1)%nat ->
  (Z.of_nat (length knots) < 2 ^ 29)%Z ->
  u32 (Z.of_nat (length knots) - 1) = Z.of_nat n /\
  u32 (Z.of_nat n * Z.of_nat (o + 1)) = Z.of_nat (n * (o + 1)) /\
  u32 (Z.of_nat n - 1) = Z.of_nat (n - 1) /\
  u32 (u32 (Z.of_nat (n - 1) * 4) + 2 + 2) = Z.of_nat (4 * n) /\
  u32 (u32 (Z.of_nat (n - 1) * 4) + 3 + 3) = Z.of_nat (4 * n + 2).
Proof.
  intros Ho Hn L Hs. rewrite L in *.
  assert (B : (Z.of_nat (n * (o + 1)) <= Z.of_nat (n * 6))%Z) by (apply Nat2Z.inj_le; nia).
  rewrite (u32_small (Z.of_nat (n - 1) * 4)) by lia.
  rewrite <- Nat2Z.inj_mul. generalize dependent (n * (o + 1))%nat. intros k B.
  repeat split; rewrite u32_small; lia.
Qed.

Lemma sys_conds_length o n D P va0 vaT : (1 <= o <= 5)%nat -> (1 <= n)%nat -> length va0 = length vaT ->
  (length va0 <= 2)%nat ->
  length (sys_conds o n D P va0 vaT) = (4 * (n - 1) + 2 * (length va0 + 1))%nat.
Proof.
  intros Ho Hn L1 L2. unfold sys_conds. rewrite !app_length, junctions_length by exact Ho.
  destruct va0 as [|v [|a [|? ?]]]; destruct vaT as [|v' [|a' [|? ?]]]; simpl in *; lia.
Qed.

(** *** Four arguments *)

Lemma set_data4_stores (solve : solver R) o c knots P v0 vT : exact_solver solve -> (3 <= o <= 5)%nat -> valid_knots knots P ->
  exists segs, segments o (length (diffs knots)) segs /\
    good o (length (diffs knots)) (diffs knots) P [v0] [vT] segs /\
    set_data4 solve o c knots P v0 vT = Ok (true, holding (splines_of segs (diffs knots))).
Proof.
  intros Hs Ho (Hlen & Hi & LP & Hsm).
  rewrite diffs_length. set (n := (length knots - 1)%nat). assert (Ln : length knots = (n + 1)%nat) by lia.
  destruct (sizes o n knots ltac:(lia) ltac:(lia) Ln Hsm) as (S1 & S2 & S3 & S4 & _).
  destruct (solve_and_store_ok solve o n knots P c [v0] [vT] Hs ltac:(lia) ltac:(lia) Ln Hi ltac:(lia)) as (segs & A & B & E).
  { apply exists4; auto; [lia|rewrite diffs_length; lia|now apply diffs_positive]. }
  exists segs. split; [exact A|]. split; [exact B|].
  unfold set_data4. rewrite S1, S2, S3, S4.
  destruct (Z.ltb_spec (Z.of_nat n) 1); [lia|].
  destruct (Z.ltb_spec (Z.of_nat (n * (o + 1))) (Z.of_nat (4 * n))); [nia|].
  rewrite sys_conds_length in E by (simpl; lia). cbn [length] in E.
  replace (4 * (n - 1) + 2 * (1 + 1))%nat with (4 * n)%nat in E by lia. exact E.
Qed.

(** *** Six arguments *)

Lemma set_data6_stores (solve : solver R) o c knots P v0 a0 vT aT : exact_solver solve -> valid_knots knots P ->
  o = 5%nat \/ (o = 4%nat /\ (3 <= length knots)%nat) ->
  exists segs, segments o (length (diffs knots)) segs /\
    good o (length (diffs knots)) (diffs knots) P [v0; a0] [vT; aT] segs /\
    set_data6 solve o c knots P v0 a0 vT aT = Ok (true, holding (splines_of segs (diffs knots))).
Proof.
  intros Hs (Hlen & Hi & LP & Hsm) Ho.
  rewrite diffs_length. set (n := (length knots - 1)%nat). assert (Ln : length knots = (n + 1)%nat) by lia.
  assert (Ho5 : (1 <= o <= 5)%nat) by lia.
  destruct (sizes o n knots ltac:(lia) ltac:(lia) Ln Hsm) as (S1 & S2 & S3 & _ & S5).
  destruct (solve_and_store_ok solve o n knots P c [v0; a0] [vT; aT] Hs ltac:(lia) ltac:(lia) Ln Hi ltac:(lia)) as (segs & A & B & E).
  { destruct Ho as [->|[-> H3]].
    - apply exists6_5; [lia|rewrite diffs_length; lia|now apply diffs_positive].
    - apply exists6_4; [lia|rewrite diffs_length; lia|now apply diffs_positive]. }
  exists segs. split; [exact A|]. split; [exact B|].
  unfold set_data6. rewrite S1, S2, S3, S5.
  destruct (Z.ltb_spec (Z.of_nat n) 1); [lia|].
  destruct (Z.ltb_spec (Z.of_nat (n * (o + 1))) (Z.of_nat (4 * n + 2))); [destruct Ho as [->|[-> H3]]; lia|].
  rewrite sys_conds_length in E by (simpl; lia). cbn [length] in E.
  replace (4 * (n - 1) + 2 * (2 + 1))%nat with (4 * n + 2)%nat in E by lia. exact E.
Qed.

Lemma reset_reset (c : container R) : reset (reset c) = reset c.
Proof. reflexivity. Qed.

Lemma set_data4_reset (solve : solver R) o c knots P v0 vT :
  set_data4 solve o (reset c) knots P v0 vT = set_data4 solve o c knots P v0 vT.
Proof. reflexivity. Qed.

(** With too many conditions for the order, the six argument version is the four
    argument one. *)
Lemma set_data6_drops (solve : solver R) o c knots P v0 a0 vT aT : (1 <= o <= 5)%nat -> (2 <= length knots)%nat ->
  (Z.of_nat (length knots) < 2 ^ 29)%Z -> (o <= 3)%nat \/ (o = 4%nat /\ length knots = 2%nat) ->
  set_data6 solve o c knots P v0 a0 vT aT = set_data4 solve o c knots P v0 vT.
Proof.
  intros Ho5 Hlen Hsm Ho. set (n := (length knots - 1)%nat). assert (Ln : length knots = (n + 1)%nat) by lia.
  destruct (sizes o n knots ltac:(lia) ltac:(lia) Ln Hsm) as (S1 & S2 & S3 & _ & S5).
  unfold set_data6. rewrite S1, S2, S3, S5.
  destruct (Z.ltb_spec (Z.of_nat n) 1); [lia|].
  destruct (Z.ltb_spec (Z.of_nat (n * (o + 1))) (Z.of_nat (4 * n + 2))) as [_|Hbad]; [apply set_data4_reset|].
  exfalso. apply Nat2Z.inj_le in Hbad. destruct Ho as [Ho|[-> Ho]]; nia.
Qed.

(** Likewise the four argument version is the two argument one for orders 1 and 2. *)
Lemma set_data4_drops (solve : solver R) o c knots P v0 vT : (1 <= o <= 2)%nat -> (2 <= length knots)%nat ->
  (Z.of_nat (length knots) < 2 ^ 29)%Z ->
  set_data4 solve o c knots P v0 vT = set_data2 o (reset c) knots P.
Proof.
  intros Ho Hlen Hsm. set (n := (length knots - 1)%nat). assert (Ln : length knots = (n + 1)%nat) by lia.
  destruct (sizes o n knots ltac:(lia) ltac:(lia) Ln Hsm) as (S1 & S2 & S3 & S4 & _).
  unfold set_data4. rewrite S1, S2, S3, S4.
  destruct (Z.ltb_spec (Z.of_nat n) 1); [lia|].
  destruct (Z.ltb_spec (Z.of_nat (n * (o + 1))) (Z.of_nat (4 * n))) as [_|Hbad]; [reflexivity|].
  exfalso. apply Nat2Z.inj_le in Hbad. nia.
Qed.

(** *** Two arguments *)

Definition line (o : nat) (knots P : list R) (i : nat) : list R :=
  repeat 0 (o - 1) ++ [(nth (i + 1) P 0 - nth i P 0) / (nth (i + 1) knots 0 - nth i knots 0); nth i P 0].

Lemma line_length o knots P i : (1 <= o)%nat -> length (line o knots P i) = (o + 1)%nat.
Proof. intros Ho. unfold line. rewrite app_length, repeat_length. simpl. lia. Qed.

Lemma line_poly o knots P i t : (1 <= o <= 5)%nat ->
  poly o (line o knots P i) t =
    nth i P 0 + t * ((nth (i + 1) P 0 - nth i P 0) / (nth (i + 1) knots 0 - nth i knots 0)).
Proof. intros Ho. unfold line. orders o; unfold poly; simpl; ring. Qed.

Lemma linear_loop_spec o knots P : length P = length knots -> forall k id c, (id + k + 1 = length knots)%nat ->
  increasing knots ->
  linear_loop o knots P k id c = Ok (true, add_splines c
    (map (fun i => spline_of (line o knots P i) (nth (i + 1) knots 0 - nth i knots 0)) (seq id k))).
Proof.
  intros LP. induction k as [|k IH]; intros id c L Hi; [reflexivity|].
  cbn [linear_loop seq map]. rewrite !vec_at_nth by lia. cbn [bind]. numR.
  pose proof (Hi id ltac:(lia)). rewrite (proj2 (Rleb_gt _ _)) by lra.
  rewrite IH by (auto; lia). change (S id) with (1 + id)%nat. rewrite (Nat.add_comm 1 id). reflexivity.
Qed.

Definition lines (o : nat) (knots P : list R) : list (list R) :=
  map (line o knots P) (seq 0 (length knots - 1)).

Lemma lines_segments o knots P : (1 <= o)%nat -> segments o (length (diffs knots)) (lines o knots P).
Proof. intros Ho. rewrite diffs_length. apply segments_map. intros i _. now apply line_length. Qed.

Lemma set_data2_stores o c knots P : (1 <= o <= 5)%nat -> valid_knots knots P ->
  set_data2 o c knots P = Ok (true, holding (splines_of (lines o knots P) (diffs knots))).
Proof.
  intros Ho (Hlen & Hi & LP & Hsm). unfold set_data2.
  destruct (Nat.eqb_spec o 0); [lia|]. cbn [orb].
  destruct (Z.ltb_spec (Z.of_nat (length knots) - 1) 1); [lia|].
  replace (Z.to_nat (Z.of_nat (length knots) - 1)) with (length knots - 1)%nat by lia.
  rewrite linear_loop_spec by (auto; lia). rewrite add_splines_holding. do 3 f_equal.
  unfold splines_of. rewrite diffs_length. apply map_ext_in. intros i Hii. apply in_seq in Hii.
  unfold lines. rewrite nth_map_seq, diffs_nth by lia. reflexivity.
Qed.

(** *** Rejection *)

Lemma durations_reject knots n i : length knots = (n + 1)%nat -> (i + 1 < length knots)%nat ->
  nth (i + 1) knots 0 <= nth i knots 0 -> durations_loop knots n 0 [] = Ok None.
Proof.
  intros L Hi Hle. apply (proj2 (durations_loop_spec knots n 0 [] ltac:(lia))).
  exists i. split; [lia|]. auto.
Qed.

Lemma set_data4_rejects (solve : solver R) o c knots P v0 vT i : (3 <= o <= 5)%nat ->
  (Z.of_nat (length knots) < 2 ^ 29)%Z -> (i + 1 < length knots)%nat ->
  nth (i + 1) knots 0 <= nth i knots 0 ->
  set_data4 solve o c knots P v0 vT = Ok (false, reset c).
Proof.
  intros Ho Hsm Hi Hle. set (n := (length knots - 1)%nat). assert (Ln : length knots = (n + 1)%nat) by lia.
  destruct (sizes o n knots ltac:(lia) ltac:(lia) Ln Hsm) as (S1 & S2 & S3 & S4 & _).
  unfold set_data4. rewrite S1, S2, S3, S4.
  destruct (Z.ltb_spec (Z.of_nat n) 1); [lia|].
  destruct (Z.ltb_spec (Z.of_nat (n * (o + 1))) (Z.of_nat (4 * n))); [nia|].
  unfold solve_and_store. rewrite Nat2Z.id, (durations_reject knots n i) by auto. reflexivity.
Qed.

Lemma set_data6_rejects (solve : solver R) o c knots P v0 a0 vT aT i : (3 <= o <= 5)%nat ->
  (Z.of_nat (length knots) < 2 ^ 29)%Z -> (i + 1 < length knots)%nat ->
  nth (i + 1) knots 0 <= nth i knots 0 ->
  set_data6 solve o c knots P v0 a0 vT aT = Ok (false, reset c).
Proof.
  intros Ho Hsm Hi Hle. set (n := (length knots - 1)%nat). assert (Ln : length knots = (n + 1)%nat) by lia.
  destruct (sizes o n knots ltac:(lia) ltac:(lia) Ln Hsm) as (S1 & S2 & S3 & _ & S5).
  unfold set_data6. rewrite S1, S2, S3, S5.
  destruct (Z.ltb_spec (Z.of_nat n) 1); [lia|].
  destruct (Z.ltb_spec (Z.of_nat (n * (o + 1))) (Z.of_nat (4 * n + 2))).
  - rewrite set_data4_reset. now apply (set_data4_rejects solve o c knots P v0 vT i).
  - unfold solve_and_store. rewrite Nat2Z.id, (durations_reject knots n i) by auto. reflexivity.
Qed.

Lemma linear_loop_rejects o knots P : length P = length knots -> forall k id c i, (id + k + 1 = length knots)%nat ->
  (id <= i)%nat -> (i + 1 < length knots)%nat -> nth (i + 1) knots 0 <= nth i knots 0 ->
  exists c', linear_loop o knots P k id c = Ok (false, c').
Proof.
  intros LP. induction k as [|k IH]; intros id c i L H1 H2 H3; [lia|].
  cbn [linear_loop]. rewrite !vec_at_nth by lia. cbn [bind]. numR.
  destruct (negb _) eqn:E; [eauto|]. apply Rleb_gt in E.
  assert (i <> id) by (intros ->; lra).
  apply (IH (id + 1)%nat _ i); auto; lia.
Qed.
