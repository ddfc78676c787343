(** * What setData stores when the solver always uses the same columns *)

From Coq Require Import Reals Lra Lia.
From Coquelicot Require Import Coquelicot.
From Coq Require Import List Bool Arith ZArith.
From Verif Require Import Base Num TimeInst Spline SplineSpec LinSpec BasicSolver SplineProofs
  Container ContainerSpec ContainerProofs SetDataSpec SetDataSys SetDataProofs SetDataExist SetDataTraj SetDataTop
  SetDataUnique Props_SetData Props_SetData2.
Import ListNotations.
Local Open Scope R_scope.

(** ** The matrix does not depend on positions, velocities and accelerations *)

Lemma three_data id a b c l l' : length l = length l' ->
  map fst (three id a b c l) = map fst (three id a b c l').
Proof.
  intros L. destruct l as [|? [|? [|? ?]]], l' as [|? [|? [|? ?]]]; try discriminate L; reflexivity.
Qed.

Lemma junctions_data o D P P' k : forall id, map fst (junctions o D P k id) = map fst (junctions o D P' k id).
Proof. induction k as [|k IH]; intros id; [reflexivity|]. cbn [junctions]. rewrite !map_app, IH. reflexivity. Qed.

Lemma sys_matrix_data o n D P P' va0 va0' vaT vaT' : length va0 = length va0' -> length vaT = length vaT' ->
  sys_matrix o n D P va0 vaT = sys_matrix o n D P' va0' vaT'.
Proof.
  intros L0 LT. unfold sys_matrix. rewrite <- !(map_map fst (rowvec (o + 1) n)). f_equal.
  unfold sys_conds. rewrite !map_app. f_equal; [apply three_data; cbn; lia|].
  f_equal; [apply three_data; cbn; lia|]. apply junctions_data.
Qed.

(** ** Vectors of unknowns and segments *)

Lemma concat_nth w : forall (segs : list (list R)) i k, Forall (fun r => length r = w) segs -> (i < length segs)%nat ->
  (k < w)%nat -> nth (i * w + k) (concat segs) 0 = nth k (nth i segs []) 0.
Proof.
  induction segs as [|r segs IH]; intros i k Hu Hi Hk; cbn in Hi; [lia|].
  inversion Hu as [|? ? Hr Hu']; subst. cbn [concat]. destruct i as [|i].
  - cbn [nth Nat.mul Nat.add]. now rewrite app_nth1.
  - cbn [nth]. rewrite app_nth2 by nia. replace (S i * length r + k - length r)%nat with (i * length r + k)%nat by nia.
    apply IH; auto. lia.
Qed.

Lemma supported_segs B o n segs : segments o n segs ->
  (supported B (concat segs) <->
   forall i k, (i < n)%nat -> (k <= o)%nat -> B (i * (o + 1) + k)%nat = false -> nth k (nth i segs []) 0 = 0).
Proof.
  intros [L Hu]. split.
  - intros H i k Hi Hk HB. rewrite <- (concat_nth (o + 1) segs i k) by (auto; lia). now apply H.
  - intros H j Hj. destruct (Nat.lt_ge_cases j (n * (o + 1))) as [Hlt|Hge].
    + pose proof (Nat.div_mod j (o + 1) ltac:(lia)) as E. pose proof (Nat.mod_upper_bound j (o + 1) ltac:(lia)) as Hm.
      assert (Hd : (j / (o + 1) < n)%nat) by (apply Nat.div_lt_upper_bound; nia).
      rewrite E, (Nat.mul_comm (o + 1)), concat_nth by (auto; lia). apply H; [exact Hd|lia|].
      rewrite (Nat.mul_comm _ (o + 1)), <- E. exact Hj.
    + apply nth_overflow. rewrite (concat_length_uniform (o + 1)) by auto. rewrite L. exact Hge.
Qed.

Lemma mat_vec_combination A x y : forall a b, Forall (fun r => length r = length a) A -> length a = length b ->
  mat_vec A (combination x y a b) = combination x y (mat_vec A a) (mat_vec A b).
Proof.
  intros a b HA L. unfold mat_vec. induction HA as [|r A Hr HA IH]; cbn [map combination]; [reflexivity|].
  f_equal; [|exact IH]. clear IH HA. revert a b Hr L. induction r as [|u r IH]; intros [|p a] [|q b] Hr L; cbn in *; try lia; try lra.
  rewrite IH by lia. ring.
Qed.

Lemma combination_difference a : forall b, length a = length b -> combination 1 (-1) a b = repeat 0 (length a) -> a = b.
Proof.
  induction a as [|p a IH]; intros [|q b] L E; cbn in *; try lia; [reflexivity|].
  assert (E1 : 1 * p + -1 * q = 0) by congruence. assert (E2 : combination 1 (-1) a b = repeat 0 (length a)) by congruence.
  f_equal; [lra|]. apply IH; [lia|exact E2].
Qed.

Lemma combination_self a : combination 1 (-1) a a = repeat 0 (length a).
Proof. induction a as [|p a IH]; cbn; [reflexivity|]. rewrite IH. f_equal. ring. Qed.

(** In the chosen columns there is only one solution. *)
Lemma basis_unique (n : nat) (A : list (list R)) B (x y : list R) :
  Forall (fun r => length r = n) A ->
  (forall z, length z = n -> supported B z -> mat_vec A z = repeat 0 (length A) -> z = repeat 0 n) ->
  length x = n -> length y = n -> supported B x -> supported B y -> mat_vec A x = mat_vec A y -> x = y.
Proof.
  intros HA HB Lx Ly Sx Sy E. apply combination_difference; [lia|]. rewrite Lx. apply HB.
  - rewrite combination_length by lia. exact Lx.
  - intros j Hj. rewrite combination_nth by lia. rewrite (Sx j Hj), (Sy j Hj). ring.
  - rewrite mat_vec_combination by (try lia; now rewrite Lx). rewrite E, combination_self.
    unfold mat_vec. now rewrite map_length.
Qed.

(** ** The segments *)

(** Which boundary conditions fit which order: [k] is 1 for the four argument version
    and 2 for the six argument version. *)
Definition suits (o k : nat) (knots : list R) : Prop :=
  (k = 1%nat /\ (3 <= o <= 5)%nat) \/ (k = 2%nat /\ (o = 5%nat \/ (o = 4%nat /\ (3 <= length knots)%nat))).

Lemma suits_order o k knots : suits o k knots -> (3 <= o <= 5)%nat /\ (1 <= k <= 2)%nat.
Proof. unfold suits. lia. Qed.

Definition fit (solve : solver R) (o : nat) (c : container R) (knots P va0 vaT : list R) : outcome (bool * container R) :=
  match va0, vaT with
  | [v0], [vT] => set_data4 solve o c knots P v0 vT
  | [v0; a0], [vT; aT] => set_data6 solve o c knots P v0 a0 vT aT
  | _, _ => UB
  end.

Lemma fit_exists o k knots P va0 vaT : suits o k knots -> valid_knots knots P -> length va0 = k -> length vaT = k ->
  exists segs, segments o (length (diffs knots)) segs /\ good o (length (diffs knots)) (diffs knots) P va0 vaT segs.
Proof.
  intros Hs (Hlen & Hi & LP & Hsm) L0 LT. pose proof (diffs_length knots) as LD.
  assert (HD : positive (diffs knots)) by now apply diffs_positive.
  destruct Hs as [[-> Ho]|[-> Ho]].
  - destruct va0 as [|v0 [|? ?]]; try discriminate L0. destruct vaT as [|vT [|? ?]]; try discriminate LT.
    apply exists4; auto. lia.
  - destruct va0 as [|v0 [|a0 [|? ?]]]; try discriminate L0. destruct vaT as [|vT [|aT [|? ?]]]; try discriminate LT.
    destruct Ho as [->|[-> H3]]; [apply exists6_5|apply exists6_4]; auto; lia.
Qed.

(** What is stored is the solution of the system. *)
Lemma fit_stores (solve : solver R) o k c knots P va0 vaT : suits o k knots -> valid_knots knots P ->
  length va0 = k -> length vaT = k ->
  let n := length (diffs knots) in
  let x := solve (n * (o + 1))%nat (sys_matrix o n (diffs knots) P va0 vaT) (sys_target o n (diffs knots) P va0 vaT) in
  length x = (n * (o + 1))%nat ->
  fit solve o c knots P va0 vaT = Ok (true, holding (splines_of (chunks (o + 1) n x) (diffs knots))).
Proof.
  intros Hs (Hlen & Hi & LP & Hsm) L0 LT n x Lx. pose proof (suits_order _ _ _ Hs) as [Ho _].
  pose proof (diffs_length knots) as LD. fold n in LD. assert (Ln : length knots = (n + 1)%nat) by lia.
  destruct (solve_and_store_explicit o n knots P va0 vaT ltac:(lia) ltac:(lia) Ln Hi ltac:(lia)) as (_ & _ & _ & Hr).
  specialize (Hr solve c Lx). fold x in Hr.
  destruct (sizes o n knots ltac:(lia) ltac:(lia) Ln Hsm) as (S1 & S2 & S3 & S4 & S5).
  destruct Hs as [[-> Ho']|[-> Ho']].
  - destruct va0 as [|v0 [|? ?]]; try discriminate L0. destruct vaT as [|vT [|? ?]]; try discriminate LT.
    cbn [fit]. unfold set_data4. rewrite S1, S2, S3, S4.
    destruct (Z.ltb_spec (Z.of_nat n) 1); [lia|].
    destruct (Z.ltb_spec (Z.of_nat (n * (o + 1))) (Z.of_nat (4 * n))); [nia|].
    rewrite sys_conds_length in Hr by (simpl; lia). cbn [length] in Hr.
    replace (4 * (n - 1) + 2 * (1 + 1))%nat with (4 * n)%nat in Hr by lia. exact Hr.
  - destruct va0 as [|v0 [|a0 [|? ?]]]; try discriminate L0. destruct vaT as [|vT [|aT [|? ?]]]; try discriminate LT.
    cbn [fit]. unfold set_data6. rewrite S1, S2, S3, S5.
    destruct (Z.ltb_spec (Z.of_nat n) 1); [lia|].
    destruct (Z.ltb_spec (Z.of_nat (n * (o + 1))) (Z.of_nat (4 * n + 2))); [destruct Ho' as [->|[-> H3]]; lia|].
    rewrite sys_conds_length in Hr by (simpl; lia). cbn [length] in Hr.
    replace (4 * (n - 1) + 2 * (2 + 1))%nat with (4 * n + 2)%nat in Hr by lia. exact Hr.
Qed.

(** One set of columns serves all positions, velocities and accelerations. *)
Lemma fit_basis (solve : solver R) o k knots : basic_solver solve -> suits o k knots ->
  (2 <= length knots)%nat -> increasing knots -> (Z.of_nat (length knots) < 2 ^ 29)%Z ->
  let n := length (diffs knots) in
  exists B, forall P va0 vaT, length P = length knots -> length va0 = k -> length vaT = k ->
    exists segs, segments o n segs /\ good o n (diffs knots) P va0 vaT segs /\ supported B (concat segs) /\
      (forall c, fit solve o c knots P va0 vaT = Ok (true, holding (splines_of segs (diffs knots)))) /\
      forall segs', segments o n segs' -> good o n (diffs knots) P va0 vaT segs' -> supported B (concat segs') -> segs' = segs.
Proof.
  intros [Hex Hb] Hs Hlen Hi Hsm n. pose proof (suits_order _ _ _ Hs) as [Ho Hk].
  pose proof (diffs_length knots) as LD. fold n in LD. assert (Ln : length knots = (n + 1)%nat) by lia.
  set (P0 := repeat 0 (length knots)). set (z := repeat 0 k).
  assert (LP0 : length P0 = length knots) by apply repeat_length. assert (Lz : length z = k) by apply repeat_length.
  set (A := sys_matrix o n (diffs knots) P0 z z).
  destruct (solve_and_store_explicit o n knots P0 z z ltac:(lia) ltac:(lia) Ln Hi ltac:(lia)) as (HA & _). fold A in HA.
  destruct (Hb (n * (o + 1))%nat A HA) as (B & HB1 & HB2). exists B. intros P va0 vaT LP L0 LT.
  assert (EA : sys_matrix o n (diffs knots) P va0 vaT = A) by (apply sys_matrix_data; lia).
  assert (Hv : valid_knots knots P) by (repeat split; auto).
  destruct (solve_and_store_explicit o n knots P va0 vaT ltac:(lia) ltac:(lia) Ln Hi ltac:(lia)) as (_ & Lb & Hm & _).
  rewrite EA in Lb, Hm. set (b := sys_target o n (diffs knots) P va0 vaT) in *.
  assert (Hsol : exists x, length x = (n * (o + 1))%nat /\ mat_vec A x = b).
  { destruct (fit_exists o k knots P va0 vaT Hs Hv L0 LT) as (segs & Sg & G). fold n in Sg, G.
    exists (concat segs). split; [|now apply Hm]. destruct Sg as [L Hu].
    rewrite (concat_length_uniform (o + 1)) by exact Hu. now rewrite L. }
  destruct (Hex _ A b HA Lb Hsol) as [Lx Ex].
  set (x := solve (n * (o + 1))%nat A b) in *.
  assert (Sg : segments o n (chunks (o + 1) n x)) by (split; [apply chunks_length|now apply chunks_uniform]).
  assert (Ec : concat (chunks (o + 1) n x) = x) by now apply chunks_concat.
  exists (chunks (o + 1) n x). split; [exact Sg|]. split; [apply Hm; [exact Sg|now rewrite Ec]|].
  split; [rewrite Ec; now apply HB1|]. split.
  - intros c. pose proof (fit_stores solve o k c knots P va0 vaT Hs Hv L0 LT) as F. cbv zeta in F.
    fold n in F. rewrite EA in F. fold b in F. exact (F Lx).
  - intros segs' Sg' G' Su'. assert (E : concat segs' = x).
    { assert (L' : length (concat segs') = (n * (o + 1))%nat).
      { destruct Sg' as [L Hu]. rewrite (concat_length_uniform (o + 1)) by exact Hu. now rewrite L. }
      apply (basis_unique (n * (o + 1))%nat A B (concat segs') x HA HB2 L' Lx Su' (HB1 b Lb Hsol) ltac:(rewrite Ex; now apply Hm)). }
    destruct Sg' as [L Hu]. rewrite <- E, chunks_of_concat; auto.
Qed.

(** ** Linear combinations *)

Lemma combination_polys o x y cs cs' t : (1 <= o <= 5)%nat -> length cs = (o + 1)%nat -> length cs' = (o + 1)%nat ->
  poly o (combination x y cs cs') t = x * poly o cs t + y * poly o cs' t /\
  dpoly o (combination x y cs cs') t = x * dpoly o cs t + y * dpoly o cs' t /\
  ddpoly o (combination x y cs cs') t = x * ddpoly o cs t + y * ddpoly o cs' t.
Proof.
  intros Ho L L'. assert (N : forall i, nth i (combination x y cs cs') 0 = x * nth i cs 0 + y * nth i cs' 0).
  { intros i. apply combination_nth. lia. }
  unfold poly, dpoly, ddpoly. rewrite !scal_sum, <- !plus_sum.
  repeat split; apply sum_eq; intros i _; rewrite N; ring.
Qed.

Lemma endpoint_combination o x y cs cs' t l l' : (1 <= o <= 5)%nat -> length cs = (o + 1)%nat -> length cs' = (o + 1)%nat ->
  length l = length l' -> endpoint o cs t l -> endpoint o cs' t l' ->
  endpoint o (combination x y cs cs') t (combination x y l l').
Proof.
  intros Ho L L' Ll E E'. destruct (combination_polys o x y cs cs' t Ho L L') as (X1 & X2 & X3).
  destruct l as [|p [|v [|a l]]], l' as [|p' [|v' [|a' l']]]; try discriminate Ll; cbn [endpoint combination] in *;
    rewrite ?X1, ?X2, ?X3; intuition congruence.
Qed.

Definition combined (x y : R) (n : nat) (s s' : list (list R)) : list (list R) :=
  map (fun i => combination x y (nth i s []) (nth i s' [])) (seq 0 n).

Lemma good_combination o n D P P' va0 va0' vaT vaT' s s' x y : (1 <= o <= 5)%nat -> (1 <= n)%nat ->
  length P = length P' -> length va0 = length va0' -> length vaT = length vaT' ->
  segments o n s -> segments o n s' -> good o n D P va0 vaT s -> good o n D P' va0' vaT' s' ->
  segments o n (combined x y n s s') /\
  good o n D (combination x y P P') (combination x y va0 va0') (combination x y vaT vaT') (combined x y n s s').
Proof.
  intros Ho Hn LP L0 LT S1 S2 (E1 & F1 & J1) (E2 & F2 & J2).
  assert (Ls : forall i, (i < n)%nat -> length (nth i s []) = (o + 1)%nat) by (intros; eapply seg_len; eauto).
  assert (Ls' : forall i, (i < n)%nat -> length (nth i s' []) = (o + 1)%nat) by (intros; eapply seg_len; eauto).
  split.
  - apply segments_map. intros i L. rewrite combination_length; rewrite ?Ls, ?Ls'; auto.
  - unfold combined. split; [|split].
    + rewrite nth_map_seq by lia. rewrite combination_nth by exact LP.
      apply (endpoint_combination o x y _ _ 0 (nth 0 P 0 :: va0) (nth 0 P' 0 :: va0'));
        [exact Ho|apply Ls; lia|apply Ls'; lia|cbn; lia|assumption|assumption].
    + rewrite nth_map_seq by lia. rewrite combination_nth by exact LP.
      apply (endpoint_combination o x y _ _ (nth (n - 1) D 0) (nth n P 0 :: vaT) (nth n P' 0 :: vaT'));
        [exact Ho|apply Ls; lia|apply Ls'; lia|cbn; lia|assumption|assumption].
    + intros i L. rewrite !nth_map_seq by lia. rewrite combination_nth by exact LP.
      destruct (combination_polys o x y (nth i s []) (nth i s' []) (nth i D 0)) as (-> & -> & ->); [exact Ho|apply Ls; lia|apply Ls'; lia|].
      destruct (combination_polys o x y (nth (i + 1) s []) (nth (i + 1) s' []) 0) as (-> & -> & ->); [exact Ho|apply Ls; lia|apply Ls'; lia|].
      destruct (J1 i L) as (a1 & a2 & a3 & a4). destruct (J2 i L) as (b1 & b2 & b3 & b4).
      rewrite a1, a2, a3, a4, b1, b2, b3, b4. auto.
Qed.

Lemma supported_combination B o n x y s s' : segments o n s -> segments o n s' ->
  segments o n (combined x y n s s') ->
  supported B (concat s) -> supported B (concat s') -> supported B (concat (combined x y n s s')).
Proof.
  intros S1 S2 S3 H1 H2. apply (supported_segs B o n _ S3). intros i k Hi Hk HB.
  pose proof (proj1 (supported_segs B o n _ S1) H1 i k Hi Hk HB) as E1.
  pose proof (proj1 (supported_segs B o n _ S2) H2 i k Hi Hk HB) as E2.
  unfold combined. rewrite nth_map_seq by exact Hi.
  rewrite combination_nth by (rewrite (seg_len o n s), (seg_len o n s'); auto). rewrite E1, E2. ring.
Qed.

(** ** Constant positions *)

Definition constant_seg (o : nat) (p : R) : list R := repeat 0 o ++ [p].

Lemma constant_length o p : length (constant_seg o p) = (o + 1)%nat.
Proof. unfold constant_seg. now rewrite app_length, repeat_length. Qed.

Lemma constant_nth o p k : (k < o)%nat -> nth k (constant_seg o p) 0 = 0.
Proof. intros H. unfold constant_seg. rewrite app_nth1 by now rewrite repeat_length. apply nth_repeat. Qed.

Lemma constant_polys o p t : (1 <= o <= 5)%nat ->
  poly o (constant_seg o p) t = p /\ dpoly o (constant_seg o p) t = 0 /\ ddpoly o (constant_seg o p) t = 0.
Proof. intros Ho. unfold constant_seg, poly, dpoly, ddpoly. orders o; simpl; repeat split; ring. Qed.

Lemma poly_zero o cs : (1 <= o <= 5)%nat -> poly o cs 0 = nth o cs 0.
Proof. intros Ho. unfold poly. orders o; simpl; ring. Qed.

Lemma constant_good o n D p k m : (1 <= o <= 5)%nat -> (1 <= n)%nat -> (n < m)%nat ->
  segments o n (map (fun _ => constant_seg o p) (seq 0 n)) /\
  good o n D (repeat p m) (repeat 0 k) (repeat 0 k) (map (fun _ => constant_seg o p) (seq 0 n)).
Proof.
  intros Ho Hn Hm. split; [apply segments_map; intros; apply constant_length|].
  assert (Hp : forall i, (i < m)%nat -> nth i (repeat p m) 0 = p).
  { intros i Hi. rewrite (nth_indep _ 0 p) by now rewrite repeat_length. apply nth_repeat. }
  pose proof (fun t => constant_polys o p t Ho) as K.
  split; [|split].
  - rewrite nth_map_seq, Hp by lia.
    destruct k as [|[|k]]; cbn [endpoint repeat]; destruct (K 0) as (K1 & K2 & K3); auto.
  - rewrite nth_map_seq, Hp by lia.
    destruct k as [|[|k]]; cbn [endpoint repeat]; destruct (K (nth (n - 1) D 0)) as (K1 & K2 & K3); auto.
  - intros i Hi. rewrite !nth_map_seq, Hp by lia. destruct (K (nth i D 0)) as (-> & -> & ->). destruct (K 0) as (-> & -> & ->).
    auto.
Qed.

(** The columns of the positions at the start of each segment are always chosen. *)
Lemma constant_columns B o n D p va0 vaT segs m : (1 <= o <= 5)%nat -> (n < m)%nat -> segments o n segs ->
  p <> 0 -> good o n D (repeat p m) va0 vaT segs -> supported B (concat segs) ->
  forall i, (i < n)%nat -> B (i * (o + 1) + o)%nat = true.
Proof.
  intros Ho Hm Sg Hp (E & _ & J) Su i Hi. destruct (B (i * (o + 1) + o)%nat) eqn:HB; [reflexivity|].
  exfalso. pose proof (proj1 (supported_segs B o n _ Sg) Su i o Hi ltac:(lia) HB) as Z.
  assert (N : forall j, (j < m)%nat -> nth j (repeat p m) 0 = p).
  { intros j Hj. rewrite (nth_indep _ 0 p) by now rewrite repeat_length. apply nth_repeat. }
  rewrite <- (poly_zero o _ Ho) in Z. destruct i as [|i].
  - destruct E as [E _]. rewrite N in E by lia. congruence.
  - destruct (J i ltac:(lia)) as (_ & X & _). rewrite N in X by lia.
    replace (i + 1)%nat with (S i) in X by lia. congruence.
Qed.

Lemma constant_supported B o n p : (forall i, (i < n)%nat -> B (i * (o + 1) + o)%nat = true) ->
  supported B (concat (map (fun _ => constant_seg o p) (seq 0 n))).
Proof.
  intros HB. assert (Sg : segments o n (map (fun _ => constant_seg o p) (seq 0 n))).
  { apply segments_map. intros. apply constant_length. }
  apply (supported_segs B o n _ Sg). intros i k Hi Hk Hf. rewrite nth_map_seq by exact Hi.
  destruct (Nat.eq_dec k o) as [->|Hne]; [rewrite HB in Hf by exact Hi; discriminate|]. apply constant_nth. lia.
Qed.
