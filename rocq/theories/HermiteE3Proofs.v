(** * Proofs about the cubic Hermite curve in E3, over the reals *)

From Coquelicot Require Import Coquelicot.
From Coq Require Import List Reals Lra Lia Bool Arith NArith ZArith Permutation Sorting.Sorted.
From Verif Require Import Base TimeOrder TimeInst KeyGen Manager ManagerSpec ManagerProofs ManagerProofs2
  ManagerProofs3 Num Sampling SamplingSpec SamplingProofs SplineSpec SetDataTraj HermiteE3 HermiteSpec.
Import ListNotations.
Local Open Scope R_scope.

(** ** Brackets with real times *)

Section Bracket.
Context {C : Type}.
Local Notation mgr := (mgr R C).
Local Notation node := (node R C).

Lemma tlt_R (a b : R) : tlt a b = true <-> a < b.
Proof. apply Rltb_lt. Qed.

Lemma node_adjacent (l u v : list node) n0 n1 x :
  StronglySorted nlt l -> l = u ++ n0 :: n1 :: v -> In x l -> n_time n0 < n_time x ->
  n_time n1 <= n_time x.
Proof.
  intros Hs -> Hx Hlt.
  assert (Hs1 := Hs). apply sorted_split in Hs1 as [Ha _].
  change (n0 :: n1 :: v) with ([n0] ++ n1 :: v) in Hs. rewrite app_assoc in Hs.
  apply sorted_split in Hs as [_ Hb]. rewrite Forall_forall in Ha, Hb.
  apply in_app_iff in Hx as [Hx|[->|[->|Hx]]]; try lra.
  - specialize (Ha _ Hx). apply tlt_R in Ha. lra.
  - specialize (Hb _ Hx). apply tlt_R in Hb. lra.
Qed.

Lemma node_split_unique (l u v u' v' : list node) n :
  StronglySorted nlt l -> l = u ++ n :: v -> l = u' ++ n :: v' -> u = u' /\ v = v'.
Proof.
  intros Hs E E'. subst l.
  assert (X : forall (p q p' q' : list node), StronglySorted nlt (p ++ n :: q) ->
    p ++ n :: q = p' ++ n :: q' -> p = p' /\ q = q'); [|eauto].
  clear. induction p as [|a p IH]; intros q p' q' Hs E.
  - destruct p' as [|b p']; simpl in E; [now injection E as ->|].
    injection E as <- ->. exfalso. apply (sorted_split []) in Hs as [_ Hb].
    rewrite Forall_forall in Hb. specialize (Hb n). rewrite in_app_iff in Hb.
    assert (X : tlt (n_time n) (n_time n) = true) by (apply Hb; simpl; auto).
    apply tlt_R in X. lra.
  - destruct p' as [|b p']; simpl in E.
    + injection E as -> <-. exfalso. apply (sorted_split []) in Hs as [_ Hb].
      rewrite Forall_forall in Hb. specialize (Hb n). rewrite in_app_iff in Hb.
      assert (X : tlt (n_time n) (n_time n) = true) by (apply Hb; simpl; auto).
      apply tlt_R in X. lra.
    + injection E as -> E. simpl in Hs. apply StronglySorted_inv in Hs as [Hs _].
      destruct (IH _ _ _ Hs E) as [-> ->]. auto.
Qed.

Lemma contents_split (m : mgr) u ta ka tb kb v :
  contents m = u ++ (ta, ka) :: (tb, kb) :: v ->
  exists a n0 n1 b, nodes m = a ++ n0 :: n1 :: b /\
    n_time n0 = ta /\ n_coef n0 = ka /\ n_time n1 = tb /\ n_coef n1 = kb /\
    length a = length u /\ length b = length v.
Proof.
  unfold contents. intros E. apply map_eq_app in E as (a & r & -> & Ea & E).
  destruct r as [|n0 [|n1 b]]; simpl in E; try discriminate.
  injection E as E1 E2 E3 E4 E5. subst.
  exists a, n0, n1, b. rewrite !map_length. repeat split; auto.
Qed.

Lemma consistent_incr (m : mgr) u ta ka tb kb v :
  consistent m -> contents m = u ++ (ta, ka) :: (tb, kb) :: v -> ta < tb.
Proof.
  intros Hc E. destruct (contents_split _ _ _ _ _ _ _ E) as (a & n0 & n1 & b & En & <- & _ & <- & _).
  apply cons_sorted in Hc. rewrite En in Hc. apply sorted_split in Hc as [_ Hb].
  inversion Hb; subst. now apply tlt_R.
Qed.

(** What getCoefficientsAt returns inside a segment. *)
Lemma bracket_R (m : mgr) u ta ka tb kb v t :
  consistent m -> contents m = u ++ (ta, ka) :: (tb, kb) :: v -> ta <= t <= tb ->
  ~ (max_time m = t /\ min_time m = t) /\
  exists n0 n1, get_coefficients_at m t = Some (n0, n1) /\
    ((n_time n0 = ta /\ n_coef n0 = ka /\ n_time n1 = tb /\ n_coef n1 = kb /\ (t < tb \/ v = [])) \/
     (t = tb /\ v <> [] /\ n_time n0 = tb /\ n_coef n0 = kb /\ tb < n_time n1)).
Proof.
  intros Hc E Ht. pose proof (consistent_incr _ _ _ _ _ _ _ Hc E) as Hlt.
  destruct (contents_split _ _ _ _ _ _ _ E) as (a & n0 & n1 & b & En & Ea & Eka & Eb & Ekb & _ & Lb).
  pose proof (cons_sorted _ Hc) as Hs.
  assert (I0 : In n0 (nodes m)) by (rewrite En, in_app_iff; simpl; auto).
  assert (I1 : In n1 (nodes m)) by (rewrite En, in_app_iff; simpl; auto).
  pose proof (min_time_bound m n0 Hc I0) as Hmin. pose proof (max_time_bound m n1 Hc I1) as Hmax.
  apply tle_R in Hmin, Hmax. split; [lra|].
  destruct (proj2 (get_at_domain m t Hc)) as [[m0 m1] Eg].
  { split; [unfold size; rewrite En, app_length; simpl; lia|]. rewrite !tle_R. lra. }
  exists m0, m1. split; [exact Eg|].
  destruct (get_at_some m t m0 m1 Hc Eg) as (a' & b' & En' & H0 & H1). apply tle_R in H0.
  assert (J0 : In m0 (nodes m)) by (rewrite En', in_app_iff; simpl; auto).
  assert (J1 : In m1 (nodes m)) by (rewrite En', in_app_iff; simpl; auto).
  assert (H01 : n_time m0 < n_time m1).
  { pose proof Hs as Hs'. rewrite En' in Hs'. apply sorted_split in Hs' as [_ Hb].
    inversion Hb; subst. now apply tlt_R. }
  assert (H1' : t <= n_time m1).
  { destruct H1 as [H1|[_ H1]]; [apply tlt_R in H1; lra|apply teq_R in H1; lra]. }
  destruct (Rtotal_order (n_time n0) (n_time m0)) as [L|[L|L]].
  - pose proof (node_adjacent _ _ _ _ _ m0 Hs En J0 L) as L'.
    assert (X : m0 = n1).
    { apply (sorted_unique (nodes m) _ _ t Hs J0 I1); apply teq_R; lra. }
    subst m0. right. split; [lra|]. split; [|repeat split; auto; lra].
    destruct (node_split_unique (nodes m) (a ++ [n0]) b a' (m1 :: b') n1 Hs) as [_ X];
      [now rewrite <- app_assoc | exact En' |].
    intros ->. rewrite X in Lb. discriminate.
  - assert (X : n0 = m0).
    { apply (sorted_unique (nodes m) _ _ (n_time m0) Hs I0 J0); apply teq_R; lra. }
    subst m0. destruct (node_split_unique (nodes m) a (n1 :: b) a' (m1 :: b') n0 Hs En En') as [_ X].
    injection X as <- <-. left. repeat split; auto.
    destruct H1 as [H1|[-> _]]; [apply tlt_R in H1; lra|]. right. destruct v; [auto|discriminate].
  - exfalso. pose proof (node_adjacent _ _ _ _ _ n0 Hs En' I0 L) as L'.
    assert (X : m1 = n0).
    { apply (sorted_unique (nodes m) _ _ t Hs J1 I0); apply teq_R; lra. }
    subst m1. destruct (node_split_unique (nodes m) a (n1 :: b) (a' ++ [m0]) b' n0 Hs En) as [_ X];
      [now rewrite <- app_assoc|].
    destruct H1 as [H1|[-> _]]; [apply tlt_R in H1; lra|discriminate].
Qed.

(** Every time in the range of a curve with two or more coefficients lies in a segment. *)
Lemma find_segment (m : mgr) t : consistent m -> (2 <= size m)%nat -> min_time m <= t <= max_time m ->
  exists u ta ka tb kb v, contents m = u ++ (ta, ka) :: (tb, kb) :: v /\ ta <= t /\
    (t < tb \/ (t = tb /\ v = [])).
Proof.
  intros Hc Hsz Ht. destruct (proj2 (get_at_domain m t Hc)) as [[n0 n1] Eg].
  { rewrite !tle_R. tauto. }
  destruct (get_at_some m t n0 n1 Hc Eg) as (a & b & En & H0 & H1). apply tle_R in H0.
  exists (map (fun n => (n_time n, n_coef n)) a), (n_time n0), (n_coef n0), (n_time n1), (n_coef n1),
    (map (fun n => (n_time n, n_coef n)) b).
  split; [unfold contents; now rewrite En, map_app|]. split; [exact H0|].
  destruct H1 as [H1|[-> H1]]; [apply tlt_R in H1; auto|apply teq_R in H1; auto].
Qed.

(** At the first knot of a segment there is either an earlier segment or nothing before. *)
Lemma first_or_before (m : mgr) u ta ka r : contents m = u ++ (ta, ka) :: r ->
  (u = [] /\ min_time m = ta) \/
  exists u' tz kz, contents m = u' ++ (tz, kz) :: (ta, ka) :: r.
Proof.
  intros E. destruct u as [|[tz kz] u' _] using rev_ind.
  - left. split; auto. unfold contents in E. unfold min_time.
    destruct (nodes m); simpl in E; [discriminate|]. now injection E as -> _ _.
  - right. exists u', tz, kz. now rewrite <- app_assoc in E.
Qed.
End Bracket.

(** ** One segment *)

Definition hval (ta tb p0 v0 p1 v1 t : R) : R :=
  let a := (t - ta) / (tb - ta) in
  p0 * (2 * (a * a * a) - 3 * (a * a) + 1) + p1 * (-2 * (a * a * a) + 3 * (a * a)) +
  v0 * ((a * a * a - 2 * (a * a) + a) * (tb - ta)) + v1 * ((a * a * a - a * a) * (tb - ta)).

Definition hvel (ta tb p0 v0 p1 v1 t : R) : R :=
  let a := (t - ta) / (tb - ta) in
  p0 * (6 * (a * a - a) * (1 / (tb - ta))) + v0 * (3 * (a * a) - 4 * a + 1) +
  p1 * (6 * (a - a * a) * (1 / (tb - ta))) + v1 * (3 * (a * a) - 2 * a).

Definition hacc (ta tb p0 v0 p1 v1 t : R) : R :=
  let a := (t - ta) / (tb - ta) in
  let d := 1 / (tb - ta) in
  p0 * (6 * (2 * a - 1) * d) * d + v0 * ((6 * a - 4) * d) +
  p1 * (6 * (1 - 2 * a) * d) * d + v1 * ((6 * a - 2) * d).

Lemma coord_value a ta tb (ka kb : knot R) t :
  coord a (e3_segment_value ta tb ka kb t) =
  hval ta tb (coord a (k_pos ka)) (coord a (k_vel ka)) (coord a (k_pos kb)) (coord a (k_vel kb)) t.
Proof. destruct a; reflexivity. Qed.

Lemma coord_velocity a ta tb (ka kb : knot R) t :
  coord a (e3_segment_velocity ta tb ka kb t) =
  hvel ta tb (coord a (k_pos ka)) (coord a (k_vel ka)) (coord a (k_pos kb)) (coord a (k_vel kb)) t.
Proof. destruct a; reflexivity. Qed.

Lemma coord_acceleration a ta tb (ka kb : knot R) t :
  coord a (e3_segment_acceleration ta tb ka kb t) =
  hacc ta tb (coord a (k_pos ka)) (coord a (k_vel ka)) (coord a (k_pos kb)) (coord a (k_vel kb)) t.
Proof. destruct a; reflexivity. Qed.

Lemma vec3_ext (u v : vec3 R) : (forall a, coord a u = coord a v) -> u = v.
Proof.
  intros E. destruct u as [x y z], v as [x' y' z'].
  pose proof (E AX) as EX. pose proof (E AY) as EY. pose proof (E AZ) as EZ. simpl in *. congruence.
Qed.

Lemma hval_start ta tb p0 v0 p1 v1 : ta < tb -> hval ta tb p0 v0 p1 v1 ta = p0.
Proof. intros. unfold hval. field. lra. Qed.
Lemma hval_end ta tb p0 v0 p1 v1 : ta < tb -> hval ta tb p0 v0 p1 v1 tb = p1.
Proof. intros. unfold hval. field. lra. Qed.
Lemma hvel_start ta tb p0 v0 p1 v1 : ta < tb -> hvel ta tb p0 v0 p1 v1 ta = v0.
Proof. intros. unfold hvel. field. lra. Qed.
Lemma hvel_end ta tb p0 v0 p1 v1 : ta < tb -> hvel ta tb p0 v0 p1 v1 tb = v1.
Proof. intros. unfold hvel. field. lra. Qed.

Lemma hval_derive ta tb p0 v0 p1 v1 t : ta < tb ->
  derivable_pt_lim (hval ta tb p0 v0 p1 v1) t (hvel ta tb p0 v0 p1 v1 t).
Proof.
  intros H. apply is_derive_Reals. unfold hval, hvel. auto_derive; [trivial|].
  simpl. field. lra.
Qed.

Lemma hvel_derive ta tb p0 v0 p1 v1 t : ta < tb ->
  derivable_pt_lim (hvel ta tb p0 v0 p1 v1) t (hacc ta tb p0 v0 p1 v1 t).
Proof.
  intros H. apply is_derive_Reals. unfold hvel, hacc. auto_derive; [trivial|].
  simpl. field. lra.
Qed.

Lemma hval_derive_start ta tb p0 v0 p1 v1 : ta < tb -> derivable_pt_lim (hval ta tb p0 v0 p1 v1) ta v0.
Proof. intros Hl. pose proof (hval_derive ta tb p0 v0 p1 v1 ta Hl) as X. now rewrite hvel_start in X. Qed.
Lemma hval_derive_end ta tb p0 v0 p1 v1 : ta < tb -> derivable_pt_lim (hval ta tb p0 v0 p1 v1) tb v1.
Proof. intros Hl. pose proof (hval_derive ta tb p0 v0 p1 v1 tb Hl) as X. now rewrite hvel_end in X. Qed.

(** ** Evaluation *)

Section Eval.
Implicit Types (c : e3_curve R).

Lemma single_test c t : ~ (max_time c = t /\ min_time c = t) ->
  (neqb (max_time c) t && neqb (min_time c) t)%bool = false.
Proof.
  intros X. destruct (neqb (max_time c) t && neqb (min_time c) t)%bool eqn:E; auto.
  apply andb_true_iff in E as [E1 E2]. apply Reqb_eq in E1, E2. tauto.
Qed.

Lemma evaluate_segment c u ta ka tb kb v t :
  consistent c -> contents c = u ++ (ta, ka) :: (tb, kb) :: v -> ta <= t <= tb ->
  e3_evaluate c t = Ok (Some (e3_segment_value ta tb ka kb t)).
Proof.
  intros Hc E Ht. destruct (bracket_R c u ta ka tb kb v t Hc E Ht) as (Hn & n0 & n1 & Eg & Hb).
  pose proof (consistent_incr _ _ _ _ _ _ _ Hc E) as Hlt.
  unfold e3_evaluate. rewrite (single_test _ _ Hn), Eg.
  destruct Hb as [(-> & -> & -> & -> & _)|(-> & _ & -> & -> & L)]; [reflexivity|].
  do 2 f_equal. apply vec3_ext. intros a. rewrite !coord_value, hval_start, hval_end; auto.
Qed.

Lemma velocity_segment c u ta ka tb kb v t :
  consistent c -> contents c = u ++ (ta, ka) :: (tb, kb) :: v -> ta <= t <= tb ->
  e3_evaluate_derivative c t 1 = Ok (Some (e3_segment_velocity ta tb ka kb t)).
Proof.
  intros Hc E Ht. destruct (bracket_R c u ta ka tb kb v t Hc E Ht) as (Hn & n0 & n1 & Eg & Hb).
  pose proof (consistent_incr _ _ _ _ _ _ _ Hc E) as Hlt.
  unfold e3_evaluate_derivative. cbn [N.eqb Pos.eqb]. rewrite (single_test _ _ Hn), Eg.
  destruct Hb as [(-> & -> & -> & -> & _)|(-> & _ & -> & -> & L)]; [reflexivity|].
  do 2 f_equal. apply vec3_ext. intros a. rewrite !coord_velocity, hvel_start, hvel_end; auto.
Qed.

Lemma acceleration_segment c u ta ka tb kb v t :
  consistent c -> contents c = u ++ (ta, ka) :: (tb, kb) :: v ->
  ta <= t < tb \/ (t = tb /\ v = []) ->
  e3_evaluate_derivative c t 2 = Ok (Some (e3_segment_acceleration ta tb ka kb t)).
Proof.
  intros Hc E Ht. pose proof (consistent_incr _ _ _ _ _ _ _ Hc E) as Hlt.
  destruct (bracket_R c u ta ka tb kb v t Hc E) as (Hn & n0 & n1 & Eg & Hb); [lra|].
  unfold e3_evaluate_derivative. cbn [N.eqb Pos.eqb]. unfold e3_evaluate_acceleration. rewrite Eg.
  destruct Hb as [(-> & -> & -> & -> & _)|(-> & Hv & -> & -> & L)]; [reflexivity|].
  exfalso. destruct Ht as [Ht|[_ ->]]; [lra|congruence].
Qed.

(** A curve with one coefficient. *)
Lemma single_contents c t0 k : contents c = [(t0, k)] ->
  exists n, nodes c = [n] /\ n_time n = t0 /\ n_coef n = k.
Proof.
  unfold contents. destruct (nodes c) as [|n [|? ?]]; simpl; try discriminate.
  intros [= <- <-]. eauto.
Qed.

Lemma single_at c t0 k t : contents c = [(t0, k)] -> get_coefficients_at c t = None.
Proof.
  intros E. destruct (single_contents _ _ _ E) as (n & En & <- & <-).
  unfold get_coefficients_at, empty, last_two, bracket_upper. rewrite En. simpl.
  destruct (teq _ _); auto. now destruct (Rltb _ _).
Qed.

Lemma evaluate_single c t0 k t : contents c = [(t0, k)] ->
  (t = t0 -> e3_evaluate c t = Ok (Some (k_pos k)) /\ e3_evaluate_derivative c t 1 = Ok (Some (k_vel k))) /\
  (t <> t0 -> e3_evaluate c t = Ok None /\ e3_evaluate_derivative c t 1 = Ok None).
Proof.
  intros E. pose proof (single_at _ _ _ t E) as Eg.
  destruct (single_contents _ _ _ E) as (n & En & <- & <-).
  unfold e3_evaluate, e3_evaluate_derivative. cbn [N.eqb Pos.eqb]. rewrite Eg.
  unfold max_time, min_time, first_coefficient. rewrite En. cbn [last_node rev app].
  split; intros Ht.
  - subst t. rewrite (proj2 (Reqb_eq _ _) eq_refl). auto.
  - rewrite (proj2 (Reqb_neq (n_time n) t)) by congruence. auto.
Qed.

Lemma empty_at c t : contents c = [] -> get_coefficients_at c t = None.
Proof.
  intros E. apply contents_nil in E. unfold get_coefficients_at, empty. now rewrite E.
Qed.

Lemma evaluate_empty c t : contents c = [] ->
  (t = 0 -> e3_evaluate c t = UB /\ e3_evaluate_derivative c t 1 = UB) /\
  (t <> 0 -> e3_evaluate c t = Ok None /\ e3_evaluate_derivative c t 1 = Ok None).
Proof.
  intros E. pose proof (empty_at _ t E) as Eg. apply contents_nil in E.
  unfold e3_evaluate, e3_evaluate_derivative. cbn [N.eqb Pos.eqb]. rewrite Eg.
  unfold max_time, min_time, first_coefficient. rewrite E. cbn [last_node rev tzero R_TimeOps].
  split; intros Ht.
  - subst t. rewrite (proj2 (Reqb_eq _ _) eq_refl). auto.
  - rewrite (proj2 (Reqb_neq 0 t)) by congruence. auto.
Qed.
End Eval.

(** Values at the coefficients of any consistent curve. *)
Lemma knot_values (c : e3_curve R) t k : consistent c -> In (t, k) (contents c) ->
  e3_evaluate c t = Ok (Some (k_pos k)) /\ e3_evaluate_derivative c t 1 = Ok (Some (k_vel k)).
Proof.
  intros Hc Hi. apply in_split in Hi as (u & v & E). destruct v as [|[tb kb] v].
  - destruct u as [|[ta ka] u _] using rev_ind.
    + now apply (evaluate_single c t k t E).
    + rewrite <- app_assoc in E. simpl in E.
      pose proof (consistent_incr _ _ _ _ _ _ _ Hc E) as Hlt.
      rewrite (evaluate_segment c u ta ka t k [] t Hc E), (velocity_segment c u ta ka t k [] t Hc E) by lra.
      split; do 2 f_equal; apply vec3_ext; intros a.
      * now rewrite coord_value, hval_end.
      * now rewrite coord_velocity, hvel_end.
  - pose proof (consistent_incr _ _ _ _ _ _ _ Hc E) as Hlt.
    rewrite (evaluate_segment c u t k tb kb v t Hc E), (velocity_segment c u t k tb kb v t Hc E) by lra.
    split; do 2 f_equal; apply vec3_ext; intros a.
    + now rewrite coord_value, hval_start.
    + now rewrite coord_velocity, hvel_start.
Qed.

(** ** Fitting *)

Lemma foldM_build {A B} (f : A -> B) (step : list B -> A -> outcome (list B)) :
  forall l acc, (forall acc x, In x l -> step acc x = Ok (acc ++ [f x])) ->
  foldM step l acc = Ok (acc ++ map f l).
Proof.
  induction l as [|x l IH]; intros acc Hs; simpl; [now rewrite app_nil_r|].
  rewrite Hs by (simpl; auto). cbn [bind]. rewrite IH by (intros; apply Hs; simpl; auto).
  now rewrite <- app_assoc.
Qed.

Section Fit.
Context {S0 : Type} `{Num S0} `{TimeOps S0}.

(** The coefficient at position [i] of a fit. *)
Definition fit_velocity (ts : list S0) (vs : list (vec3 S0)) (d0 d1 : vec3 S0) (i : nat) : vec3 S0 :=
  match i with
  | O => d0
  | S j => if Nat.eqb (S i) (length ts) then d1
           else e3_slope (nth j ts tzero) (nth (S i) ts tzero) (nth j vs vzero) (nth (S i) vs vzero)
  end.

Definition fit_knot ts vs d0 d1 i : knot S0 := Knot (nth i vs vzero) (fit_velocity ts vs d0 d1 i).

Lemma size_sub_pos a b : (b <= a)%N -> (a < key_mod)%N -> size_sub a b = (a - b)%N.
Proof.
  intros L U. unfold size_sub. replace (a + key_mod - b)%N with ((a - b) + 1 * key_mod)%N by lia.
  rewrite N.mod_add by (unfold key_mod; lia). apply N.mod_small. lia.
Qed.

Lemma vec_at_nth {A} (l : list A) i d : (N.to_nat i < length l)%nat -> vec_at l i = Ok (nth (N.to_nat i) l d).
Proof. intros L. unfold vec_at. now rewrite (nth_error_nth' l d L). Qed.

Lemma vec_at_out {A} (l : list A) i : (length l <= N.to_nat i)%nat -> vec_at l i = UB.
Proof. intros L. unfold vec_at. now rewrite (proj2 (nth_error_None l _) L). Qed.

Lemma e3_coefficients_ok ts vs d0 d1 :
  length ts = length vs -> (N.of_nat (length ts) < key_mod)%N ->
  e3_coefficients ts vs d0 d1 = Ok (map (fit_knot ts vs d0 d1) (seq 0 (length ts))).
Proof.
  intros Hl Hn. unfold e3_coefficients.
  rewrite (foldM_build (fun i => fit_knot ts vs d0 d1 (N.to_nat i))).
  - rewrite map_map. simpl. f_equal. apply map_ext. intros i. now rewrite Nat2N.id.
  - intros acc x Hx. apply in_map_iff in Hx as (i & <- & Hi). apply in_seq in Hi.
    rewrite (vec_at_nth vs _ vzero) by (rewrite Nat2N.id; lia). rewrite Nat2N.id.
    assert (E : e3_derivative_at ts vs d0 d1 (N.of_nat i) = Ok (fit_velocity ts vs d0 d1 i)).
    { unfold e3_derivative_at, fit_velocity. destruct i as [|j]; [reflexivity|].
      destruct (N.eqb_spec (N.of_nat (S j)) 0); [lia|].
      rewrite size_sub_pos by lia.
      destruct (Nat.eqb_spec (S (S j)) (length ts)) as [E|E].
      - destruct (N.eqb_spec (N.of_nat (S j)) (N.of_nat (length ts) - 1)); [reflexivity|lia].
      - destruct (N.eqb_spec (N.of_nat (S j)) (N.of_nat (length ts) - 1)); [lia|].
        rewrite size_sub_pos by lia.
        replace (N.of_nat (S j) - 1)%N with (N.of_nat j) by lia.
        replace (N.of_nat (S j) + 1)%N with (N.of_nat (S (S j))) by lia.
        rewrite (vec_at_nth ts _ tzero), (vec_at_nth ts _ tzero), (vec_at_nth vs _ vzero), (vec_at_nth vs _ vzero)
          by (rewrite Nat2N.id; lia).
        cbn [bind]. now rewrite !Nat2N.id. }
    rewrite E. reflexivity.
Qed.

Lemma fit_knots_length ts vs d0 d1 : length (map (fit_knot ts vs d0 d1) (seq 0 (length ts))) = length ts.
Proof. now rewrite map_length, seq_length. Qed.

Lemma fit_knots_nth ts vs d0 d1 i : (i < length ts)%nat ->
  nth_error (map (fit_knot ts vs d0 d1) (seq 0 (length ts))) i = Some (fit_knot ts vs d0 d1 i).
Proof.
  intros L. rewrite nth_error_map, (nth_error_nth' _ 0%nat) by now rewrite seq_length.
  now rewrite seq_nth.
Qed.

Lemma nth_error_combine {A B} : forall (l : list A) (l' : list B) i a b,
  nth_error l i = Some a -> nth_error l' i = Some b -> nth_error (combine l l') i = Some (a, b).
Proof.
  induction l as [|x l IH]; intros [|y l'] [|i] a b; simpl; try discriminate.
  - now intros [= ->] [= ->].
  - apply IH.
Qed.
End Fit.

Lemma increasing_cons (t : R) ts : increasing_times (t :: ts) <->
  (forall t' r, ts = t' :: r -> t < t') /\ increasing_times ts.
Proof.
  unfold increasing_times, at_knot. split.
  - intros Hi. split.
    + intros t' r ->. apply (Hi 0%nat). simpl. lia.
    + intros i L. apply (Hi (S i)). simpl. lia.
  - intros [H0 Hi] [|i] L; simpl in *.
    + destruct ts as [|t' r]; simpl in *; [lia|]. eapply H0; eauto.
    + apply Hi. lia.
Qed.

Lemma increasing_combine {C} : forall (ts : list R) (cs : list C), length ts = length cs ->
  increasing_times ts -> increasing (combine ts cs).
Proof.
  induction ts as [|t ts IH]; intros [|c cs] Hl Hi; simpl in *; try discriminate; auto.
  apply increasing_cons in Hi as [H0 Hi]. split; [|apply IH; auto].
  destruct ts as [|t' ts], cs as [|c' cs]; simpl; auto. apply tlt_R. eauto.
Qed.


Lemma empty_sane (c : e3_curve R) g : consistent c -> e3_size c = 0%nat -> sane g c /\ contents c = [].
Proof.
  unfold e3_size. intros Hc Hz. pose proof Hz as Hn. rewrite contents_size in Hn.
  apply length_zero_iff_nil in Hn. split; [|exact Hn]. split; [exact Hc|].
  apply contents_nil in Hn. unfold keys_below, get_keys. rewrite Hn. constructor.
Qed.

Lemma e3_fit_spec debug g (c : e3_curve R) ts vs d0 d1 out :
  consistent c -> e3_size c = 0%nat -> length ts = length vs -> increasing_times ts ->
  (g + N.of_nat (length ts) < key_mod)%N ->
  exists c' ks, e3_fit_with_derivatives debug g c ts vs d0 d1 out =
      Ok ((g + N.of_nat (length ts))%N, c', out ++ ks) /\ length ks = length ts /\
    sane (g + N.of_nat (length ts)) c' /\
    contents c' = combine ts (map (fit_knot ts vs d0 d1) (seq 0 (length ts))).
Proof.
  intros Hc Hz Hl Hi Hg. destruct (empty_sane c g Hc Hz) as [Hs Hn].
  unfold e3_fit_with_derivatives. rewrite Hl, Nat.eqb_refl, <- Hl. cbn [negb]. rewrite andb_false_r.
  rewrite e3_coefficients_ok by (auto; lia). cbn [bind].
  destruct (insert_coefficients_end ts (map (fit_knot ts vs d0 d1) (seq 0 (length ts))) g c out Hs)
    as (m' & ks & E & Hs' & Hc' & Hk); auto.
  - now rewrite fit_knots_length.
  - rewrite Hn. apply increasing_combine; auto. now rewrite fit_knots_length.
  - exists m', ks. rewrite Hn in Hc'. auto.
Qed.

Lemma fit_contents_in ts vs d0 d1 i t (p : vec3 R) : length ts = length vs ->
  nth_error ts i = Some t -> nth_error vs i = Some p ->
  In (t, Knot p (fit_velocity ts vs d0 d1 i))
     (combine ts (map (fit_knot ts vs d0 d1) (seq 0 (length ts)))).
Proof.
  intros Hl Et Ep. assert (L : (i < length ts)%nat) by (apply nth_error_Some; congruence).
  apply (nth_error_In _ i). apply nth_error_combine; auto. rewrite fit_knots_nth by auto.
  unfold fit_knot. now rewrite (nth_error_nth _ _ _ Ep).
Qed.

Lemma coord_slope a tA tB (pA pB : vec3 R) :
  coord a (e3_slope tA tB pA pB) = (coord a pB - coord a pA) / (tB - tA).
Proof. unfold Rdiv. destruct a; simpl; unfold Rdiv; now rewrite Rmult_1_l. Qed.

Lemma nth_coord a (vs : list (vec3 R)) i : nth i (map (coord a) vs) 0 = coord a (nth i vs vzero).
Proof. rewrite <- (map_nth (coord a)). f_equal. now destruct a. Qed.

Lemma coord_fit_velocity a ts (vs : list (vec3 R)) d0 d1 i :
  coord a (fit_velocity ts vs d0 d1 i) =
  catmull_rom ts (map (coord a) vs) (coord a d0) (coord a d1) i.
Proof.
  unfold fit_velocity, catmull_rom. destruct i as [|j]; [reflexivity|].
  destruct (Nat.eqb _ _); [reflexivity|]. rewrite coord_slope. unfold at_knot. now rewrite !nth_coord.
Qed.

(** ** Smoothness *)

(** What a caller sees. *)
Definition pos_at (c : e3_curve R) (t : R) : vec3 R :=
  match e3_evaluate c t with Ok (Some v) => v | _ => vzero end.
Definition vel_at (c : e3_curve R) (t : R) : vec3 R :=
  match e3_evaluate_derivative c t 1 with Ok (Some v) => v | _ => vzero end.
Definition acc_at (c : e3_curve R) (t : R) : vec3 R :=
  match e3_evaluate_derivative c t 2 with Ok (Some v) => v | _ => vzero end.

Section Smooth.
Variable c : e3_curve R.
Hypothesis Hc : consistent c.

Lemma pos_segment u ta ka tb kb v t a :
  contents c = u ++ (ta, ka) :: (tb, kb) :: v -> ta <= t <= tb ->
  coord a (pos_at c t) =
  hval ta tb (coord a (k_pos ka)) (coord a (k_vel ka)) (coord a (k_pos kb)) (coord a (k_vel kb)) t.
Proof. intros E Ht. unfold pos_at. rewrite (evaluate_segment c u ta ka tb kb v t Hc E Ht). apply coord_value. Qed.

Lemma vel_segment u ta ka tb kb v t a :
  contents c = u ++ (ta, ka) :: (tb, kb) :: v -> ta <= t <= tb ->
  coord a (vel_at c t) =
  hvel ta tb (coord a (k_pos ka)) (coord a (k_vel ka)) (coord a (k_pos kb)) (coord a (k_vel kb)) t.
Proof. intros E Ht. unfold vel_at. rewrite (velocity_segment c u ta ka tb kb v t Hc E Ht). apply coord_velocity. Qed.

Lemma acc_segment u ta ka tb kb v t a :
  contents c = u ++ (ta, ka) :: (tb, kb) :: v -> ta <= t < tb \/ (t = tb /\ v = []) ->
  coord a (acc_at c t) =
  hacc ta tb (coord a (k_pos ka)) (coord a (k_vel ka)) (coord a (k_pos kb)) (coord a (k_vel kb)) t.
Proof. intros E Ht. unfold acc_at. rewrite (acceleration_segment c u ta ka tb kb v t Hc E Ht). apply coord_acceleration. Qed.

(** Around an interior time the curve is one segment or two segments that meet. *)
Lemma interior_cases t : (2 <= size c)%nat -> min_time c < t < max_time c ->
  exists u ta ka tb kb v, contents c = u ++ (ta, ka) :: (tb, kb) :: v /\ t < tb /\
    (ta < t \/ (ta = t /\ exists u' tz kz, tz < ta /\ contents c = u' ++ (tz, kz) :: (ta, ka) :: (tb, kb) :: v)).
Proof.
  intros Hsz Ht. destruct (find_segment c t Hc Hsz) as (u & ta & ka & tb & kb & v & E & H0 & H1); [lra|].
  exists u, ta, ka, tb, kb, v. split; [exact E|].
  assert (Htb : t < tb).
  { destruct H1 as [H1|[-> ->]]; [auto|]. exfalso.
    assert (X : max_time c = tb); [|lra]. apply (contents_max c (u ++ [(ta, ka)]) tb kb).
    now rewrite <- app_assoc. }
  split; [exact Htb|]. destruct (Rle_lt_or_eq_dec _ _ H0) as [L|L]; [auto|]. right. split; [exact L|].
  destruct (first_or_before c u ta ka _ E) as [[_ X]|(u' & tz & kz & E')]; [lra|].
  exists u', tz, kz. split; [|exact E']. exact (consistent_incr _ _ _ _ _ _ _ Hc E').
Qed.

Lemma interior_derivative t a : (2 <= size c)%nat -> min_time c < t < max_time c ->
  derivable_pt_lim (fun s => coord a (pos_at c s)) t (coord a (vel_at c t)).
Proof.
  intros Hsz Ht. destruct (interior_cases t Hsz Ht) as (u & ta & ka & tb & kb & v & E & Htb & Hta).
  pose proof (consistent_incr _ _ _ _ _ _ _ Hc E) as Hlt.
  rewrite (vel_segment _ _ _ _ _ _ t a E) by lra.
  set (g2 := hval ta tb (coord a (k_pos ka)) (coord a (k_vel ka)) (coord a (k_pos kb)) (coord a (k_vel kb))).
  destruct Hta as [Hta|(-> & u' & tz & kz & Hz & E')].
  - apply glue_derivative with (g1 := g2) (g2 := g2) (d := Rmin (t - ta) (tb - t)).
    + apply Rmin_glb_lt; lra.
    + intros x Hx. pose proof (Rmin_l (t - ta) (tb - t)). apply (pos_segment _ _ _ _ _ _ x a E). lra.
    + intros x Hx. pose proof (Rmin_r (t - ta) (tb - t)). apply (pos_segment _ _ _ _ _ _ x a E). lra.
    + now apply hval_derive.
    + now apply hval_derive.
  - rewrite hvel_start by lra.
    apply glue_derivative with (g2 := g2) (d := Rmin (t - tz) (tb - t))
      (g1 := hval tz t (coord a (k_pos kz)) (coord a (k_vel kz)) (coord a (k_pos ka)) (coord a (k_vel ka))).
    + apply Rmin_glb_lt; lra.
    + intros x Hx. pose proof (Rmin_l (t - tz) (tb - t)). apply (pos_segment _ _ _ _ _ _ x a E'). lra.
    + intros x Hx. pose proof (Rmin_r (t - tz) (tb - t)). apply (pos_segment _ _ _ _ _ _ x a E). lra.
    + now apply hval_derive_end.
    + now apply hval_derive_start.
Qed.

Lemma hvel_continuity ta tb p0 v0 p1 v1 t : ta < tb -> continuity_pt (hvel ta tb p0 v0 p1 v1) t.
Proof.
  intros Hl. apply derivable_continuous_pt. exists (hacc ta tb p0 v0 p1 v1 t). now apply hvel_derive.
Qed.

Lemma interior_velocity_continuous t a : (2 <= size c)%nat -> min_time c < t < max_time c ->
  continuity_pt (fun s => coord a (vel_at c s)) t.
Proof.
  intros Hsz Ht. destruct (interior_cases t Hsz Ht) as (u & ta & ka & tb & kb & v & E & Htb & Hta).
  pose proof (consistent_incr _ _ _ _ _ _ _ Hc E) as Hlt.
  set (g2 := hvel ta tb (coord a (k_pos ka)) (coord a (k_vel ka)) (coord a (k_pos kb)) (coord a (k_vel kb))).
  destruct Hta as [Hta|(-> & u' & tz & kz & Hz & E')].
  - apply glue_continuity with (g1 := g2) (g2 := g2) (d := Rmin (t - ta) (tb - t)).
    + apply Rmin_glb_lt; lra.
    + intros x Hx. pose proof (Rmin_l (t - ta) (tb - t)). apply (vel_segment _ _ _ _ _ _ x a E). lra.
    + intros x Hx. pose proof (Rmin_r (t - ta) (tb - t)). apply (vel_segment _ _ _ _ _ _ x a E). lra.
    + now apply hvel_continuity.
    + now apply hvel_continuity.
  - apply glue_continuity with (g2 := g2) (d := Rmin (t - tz) (tb - t))
      (g1 := hvel tz t (coord a (k_pos kz)) (coord a (k_vel kz)) (coord a (k_pos ka)) (coord a (k_vel ka))).
    + apply Rmin_glb_lt; lra.
    + intros x Hx. pose proof (Rmin_l (t - tz) (tb - t)). apply (vel_segment _ _ _ _ _ _ x a E'). lra.
    + intros x Hx. pose proof (Rmin_r (t - tz) (tb - t)). apply (vel_segment _ _ _ _ _ _ x a E). lra.
    + now apply hvel_continuity.
    + now apply hvel_continuity.
Qed.

Lemma segment_acceleration t ta ka tb kb a : adjacent (contents c) (ta, ka) (tb, kb) -> ta < t < tb ->
  derivable_pt_lim (fun s => coord a (vel_at c s)) t (coord a (acc_at c t)).
Proof.
  intros (u & v & E) Ht. rewrite (acc_segment _ _ _ _ _ _ t a E) by lra.
  set (g := hvel ta tb (coord a (k_pos ka)) (coord a (k_vel ka)) (coord a (k_pos kb)) (coord a (k_vel kb))).
  apply glue_derivative with (g1 := g) (g2 := g) (d := Rmin (t - ta) (tb - t)).
  - apply Rmin_glb_lt; lra.
  - intros x Hx. pose proof (Rmin_l (t - ta) (tb - t)). apply (vel_segment _ _ _ _ _ _ x a E). lra.
  - intros x Hx. pose proof (Rmin_r (t - ta) (tb - t)). apply (vel_segment _ _ _ _ _ _ x a E). lra.
  - apply hvel_derive. lra.
  - apply hvel_derive. lra.
Qed.

(** At the ends of the range. *)
Lemma ends_derivative a : (2 <= size c)%nat ->
  right_derivative (fun s => coord a (pos_at c s)) (min_time c) (coord a (vel_at c (min_time c))) /\
  left_derivative (fun s => coord a (pos_at c s)) (max_time c) (coord a (vel_at c (max_time c))).
Proof.
  intros Hsz. assert (Hmm : min_time c < max_time c).
  { destruct (nodes c) as [|n0 [|n1 l]] eqn:En; unfold size in Hsz; rewrite En in Hsz; simpl in Hsz; try lia.
    assert (E : contents c = [] ++ (n_time n0, n_coef n0) :: (n_time n1, n_coef n1) ::
      map (fun n => (n_time n, n_coef n)) l) by (unfold contents; now rewrite En).
    pose proof (consistent_incr _ _ _ _ _ _ _ Hc E).
    assert (I0 : In n0 (nodes c)) by (rewrite En; simpl; auto).
    assert (I1 : In n1 (nodes c)) by (rewrite En; simpl; auto).
    pose proof (min_time_bound c n0 Hc I0) as A. pose proof (max_time_bound c n1 Hc I1) as B.
    apply tle_R in A, B. lra. }
  split.
  - destruct (find_segment c (min_time c) Hc Hsz) as (u & ta & ka & tb & kb & v & E & H0 & H1); [lra|].
    assert (Ea : ta = min_time c).
    { destruct (contents_split _ _ _ _ _ _ _ E) as (x & n0 & n1 & y & En & <- & _).
      assert (I0 : In n0 (nodes c)) by (rewrite En, in_app_iff; simpl; auto).
      pose proof (min_time_bound c n0 Hc I0) as A. apply tle_R in A. lra. }
    pose proof (consistent_incr _ _ _ _ _ _ _ Hc E) as Hlt. subst ta.
    rewrite (vel_segment _ _ _ _ _ _ _ a E) by lra.
    apply glue_right with (d := tb - min_time c)
      (g := hval (min_time c) tb (coord a (k_pos ka)) (coord a (k_vel ka)) (coord a (k_pos kb)) (coord a (k_vel kb))).
    + lra.
    + intros x Hx. apply (pos_segment _ _ _ _ _ _ x a E). lra.
    + now apply hval_derive.
  - destruct (find_segment c (max_time c) Hc Hsz) as (u & ta & ka & tb & kb & v & E & H0 & H1); [lra|].
    assert (Eb : tb = max_time c /\ v = []).
    { destruct H1 as [H1|[H1 H2]]; [|auto]. exfalso.
      destruct (contents_split _ _ _ _ _ _ _ E) as (x & n0 & n1 & y & En & _ & _ & <- & _).
      assert (I0 : In n1 (nodes c)) by (rewrite En, in_app_iff; simpl; auto).
      pose proof (max_time_bound c n1 Hc I0) as A. apply tle_R in A. lra. }
    pose proof (consistent_incr _ _ _ _ _ _ _ Hc E) as Hlt. destruct Eb as [-> ->].
    rewrite (vel_segment _ _ _ _ _ _ _ a E) by lra.
    apply glue_left with (d := max_time c - ta)
      (g := hval ta (max_time c) (coord a (k_pos ka)) (coord a (k_vel ka)) (coord a (k_pos kb)) (coord a (k_vel kb))).
    + lra.
    + intros x Hx. apply (pos_segment _ _ _ _ _ _ x a E). lra.
    + now apply hval_derive.
Qed.
End Smooth.

(** ** Cubic polynomials are reproduced *)

Lemma hval_cubic ta tb c0 c1 c2 c3 t : ta < tb ->
  hval ta tb (cubic c0 c1 c2 c3 ta) (dcubic c0 c1 c2 c3 ta) (cubic c0 c1 c2 c3 tb) (dcubic c0 c1 c2 c3 tb) t =
  cubic c0 c1 c2 c3 t.
Proof. intros. unfold hval, cubic, dcubic. field. lra. Qed.

Lemma hvel_cubic ta tb c0 c1 c2 c3 t : ta < tb ->
  hvel ta tb (cubic c0 c1 c2 c3 ta) (dcubic c0 c1 c2 c3 ta) (cubic c0 c1 c2 c3 tb) (dcubic c0 c1 c2 c3 tb) t =
  dcubic c0 c1 c2 c3 t.
Proof. intros. unfold hvel, cubic, dcubic. field. lra. Qed.

Lemma hacc_cubic ta tb c0 c1 c2 c3 t : ta < tb ->
  hacc ta tb (cubic c0 c1 c2 c3 ta) (dcubic c0 c1 c2 c3 ta) (cubic c0 c1 c2 c3 tb) (dcubic c0 c1 c2 c3 tb) t =
  ddcubic c0 c1 c2 c3 t.
Proof. intros. unfold hacc, cubic, dcubic, ddcubic. field. lra. Qed.

Lemma hermite_cubic_exists ta tb p0 v0 p1 v1 : ta < tb -> exists c0 c1 c2 c3,
  cubic c0 c1 c2 c3 ta = p0 /\ dcubic c0 c1 c2 c3 ta = v0 /\
  cubic c0 c1 c2 c3 tb = p1 /\ dcubic c0 c1 c2 c3 tb = v1.
Proof.
  intros Hl. set (h := tb - ta).
  (* in the variable s = t - ta: p0 + v0 s + b s^2 + d s^3 *)
  set (b := (3 * (p1 - p0) / h - 2 * v0 - v1) / h).
  set (d := (v0 + v1 - 2 * (p1 - p0) / h) / (h * h)).
  exists (p0 - v0 * ta + b * ta ^ 2 - d * ta ^ 3), (v0 - 2 * b * ta + 3 * d * ta ^ 2), (b - 3 * d * ta), d.
  unfold cubic, dcubic, b, d, h. repeat split; field; lra.
Qed.

(** ** Domain *)

Lemma evaluate_outside (c : e3_curve R) t : consistent c -> (2 <= size c)%nat ->
  ~ (min_time c <= t <= max_time c) ->
  e3_evaluate c t = Ok None /\ e3_evaluate_derivative c t 1 = Ok None /\ e3_evaluate_derivative c t 2 = Ok None.
Proof.
  intros Hc Hsz Ht.
  assert (Eg : get_coefficients_at c t = None).
  { destruct (get_coefficients_at c t) as [r|] eqn:E; auto. exfalso. apply Ht.
    destruct (proj1 (get_at_domain c t Hc) (ex_intro _ _ E)) as (_ & A & B).
    now rewrite !tle_R in *. }
  assert (Hmm : min_time c < max_time c).
  { destruct (nodes c) as [|n0 [|n1 l]] eqn:En; unfold size in Hsz; rewrite En in Hsz; simpl in Hsz; try lia.
    assert (E : contents c = [] ++ (n_time n0, n_coef n0) :: (n_time n1, n_coef n1) ::
      map (fun n => (n_time n, n_coef n)) l) by (unfold contents; now rewrite En).
    pose proof (consistent_incr _ _ _ _ _ _ _ Hc E).
    assert (I0 : In n0 (nodes c)) by (rewrite En; simpl; auto).
    assert (I1 : In n1 (nodes c)) by (rewrite En; simpl; auto).
    pose proof (min_time_bound c n0 Hc I0) as A. pose proof (max_time_bound c n1 Hc I1) as B.
    apply tle_R in A, B. lra. }
  unfold e3_evaluate, e3_evaluate_derivative. cbn [N.eqb Pos.eqb].
  unfold e3_evaluate_acceleration. rewrite Eg, single_test by lra. auto.
Qed.

Lemma size_cases (c : e3_curve R) :
  contents c = [] \/ (exists t k, contents c = [(t, k)]) \/ (2 <= size c)%nat.
Proof.
  rewrite contents_size. destruct (contents c) as [|[t k] [|? ?]]; simpl; eauto. right. right. lia.
Qed.

Lemma min_contents (c : e3_curve R) t k r : contents c = (t, k) :: r -> min_time c = t.
Proof.
  unfold contents, min_time. destruct (nodes c); simpl; [discriminate|]. now intros [= -> _ _].
Qed.

(** ** Transforming the data *)

Definition moved (M : axis -> axis -> R) (b : vec3 R) (al s : R) (x : R * knot R) : R * knot R :=
  (al * fst x + s, Knot (affine M b (k_pos (snd x))) (scaled (/ al) (linear M (k_vel (snd x))))).

Lemma hval_move al s ta tb p0 v0 p1 v1 t : 0 < al -> ta < tb ->
  hval (al * ta + s) (al * tb + s) p0 (/ al * v0) p1 (/ al * v1) (al * t + s) = hval ta tb p0 v0 p1 v1 t.
Proof.
  intros Ha Hl. unfold hval.
  replace ((al * t + s - (al * ta + s)) / (al * tb + s - (al * ta + s))) with ((t - ta) / (tb - ta)).
  - field. lra.
  - field. split; [nra|]. lra.
Qed.

Lemma hvel_move al s ta tb p0 v0 p1 v1 t : 0 < al -> ta < tb ->
  hvel (al * ta + s) (al * tb + s) p0 (/ al * v0) p1 (/ al * v1) (al * t + s) = / al * hvel ta tb p0 v0 p1 v1 t.
Proof.
  intros Ha Hl. unfold hvel.
  replace ((al * t + s - (al * ta + s)) / (al * tb + s - (al * ta + s))) with ((t - ta) / (tb - ta)).
  - field. split; [lra|]. split; [lra|]. nra.
  - field. split; [nra|]. lra.
Qed.

Lemma hacc_move al s ta tb p0 v0 p1 v1 t : 0 < al -> ta < tb ->
  hacc (al * ta + s) (al * tb + s) p0 (/ al * v0) p1 (/ al * v1) (al * t + s) =
  / (al * al) * hacc ta tb p0 v0 p1 v1 t.
Proof.
  intros Ha Hl. unfold hacc.
  replace ((al * t + s - (al * ta + s)) / (al * tb + s - (al * ta + s))) with ((t - ta) / (tb - ta)).
  - field. split; [lra|]. split; [lra|]. nra.
  - field. split; [nra|]. lra.
Qed.

Section Linear.
Variables x y z b : R.

Lemma hval_linear ta tb p0 v0 p1 v1 q0 w0 q1 w1 r0 u0 r1 u1 t : ta < tb ->
  hval ta tb (x * p0 + y * q0 + z * r0 + b) (x * v0 + y * w0 + z * u0)
             (x * p1 + y * q1 + z * r1 + b) (x * v1 + y * w1 + z * u1) t =
  x * hval ta tb p0 v0 p1 v1 t + y * hval ta tb q0 w0 q1 w1 t + z * hval ta tb r0 u0 r1 u1 t + b.
Proof. intros. unfold hval. field. lra. Qed.

Lemma hvel_linear ta tb p0 v0 p1 v1 q0 w0 q1 w1 r0 u0 r1 u1 t : ta < tb ->
  hvel ta tb (x * p0 + y * q0 + z * r0 + b) (x * v0 + y * w0 + z * u0)
             (x * p1 + y * q1 + z * r1 + b) (x * v1 + y * w1 + z * u1) t =
  x * hvel ta tb p0 v0 p1 v1 t + y * hvel ta tb q0 w0 q1 w1 t + z * hvel ta tb r0 u0 r1 u1 t.
Proof. intros. unfold hvel. field. lra. Qed.

Lemma hacc_linear ta tb p0 v0 p1 v1 q0 w0 q1 w1 r0 u0 r1 u1 t : ta < tb ->
  hacc ta tb (x * p0 + y * q0 + z * r0 + b) (x * v0 + y * w0 + z * u0)
             (x * p1 + y * q1 + z * r1 + b) (x * v1 + y * w1 + z * u1) t =
  x * hacc ta tb p0 v0 p1 v1 t + y * hacc ta tb q0 w0 q1 w1 t + z * hacc ta tb r0 u0 r1 u1 t.
Proof. intros. unfold hacc. field. lra. Qed.
End Linear.

Lemma coord_linear M v a : coord a (linear M v) = M a AX * vx v + M a AY * vy v + M a AZ * vz v.
Proof. now destruct a. Qed.
Lemma coord_affine M b v a :
  coord a (affine M b v) = M a AX * vx v + M a AY * vy v + M a AZ * vz v + coord a b.
Proof. now destruct a. Qed.
Lemma coord_scaled s v a : coord a (scaled s v) = s * coord a v.
Proof. now destruct a. Qed.

Lemma segment_value_moved M b al s ta tb (ka kb : knot R) t : 0 < al -> ta < tb ->
  e3_segment_value (fst (moved M b al s (ta, ka))) (fst (moved M b al s (tb, kb)))
    (snd (moved M b al s (ta, ka))) (snd (moved M b al s (tb, kb))) (al * t + s) =
  affine M b (e3_segment_value ta tb ka kb t).
Proof.
  intros Ha Hl. apply vec3_ext. intros a. rewrite coord_value, coord_affine. cbn [moved fst snd k_pos k_vel].
  rewrite !coord_scaled, hval_move, !coord_affine, !coord_linear, hval_linear by auto. reflexivity.
Qed.

Lemma segment_velocity_moved M b al s ta tb (ka kb : knot R) t : 0 < al -> ta < tb ->
  e3_segment_velocity (fst (moved M b al s (ta, ka))) (fst (moved M b al s (tb, kb)))
    (snd (moved M b al s (ta, ka))) (snd (moved M b al s (tb, kb))) (al * t + s) =
  scaled (/ al) (linear M (e3_segment_velocity ta tb ka kb t)).
Proof.
  intros Ha Hl. apply vec3_ext. intros a. rewrite coord_velocity, coord_scaled, coord_linear.
  cbn [moved fst snd k_pos k_vel].
  rewrite !coord_scaled, hvel_move, !coord_affine, !coord_linear, hvel_linear by auto. reflexivity.
Qed.

Lemma segment_acceleration_moved M b al s ta tb (ka kb : knot R) t : 0 < al -> ta < tb ->
  e3_segment_acceleration (fst (moved M b al s (ta, ka))) (fst (moved M b al s (tb, kb)))
    (snd (moved M b al s (ta, ka))) (snd (moved M b al s (tb, kb))) (al * t + s) =
  scaled (/ (al * al)) (linear M (e3_segment_acceleration ta tb ka kb t)).
Proof.
  intros Ha Hl. apply vec3_ext. intros a. rewrite coord_acceleration, coord_scaled, coord_linear.
  cbn [moved fst snd k_pos k_vel].
  rewrite !coord_scaled, hacc_move, !coord_affine, !coord_linear, hacc_linear by auto. reflexivity.
Qed.

Lemma evaluate_moved M b al s (c1 c2 : e3_curve R) t :
  0 < al -> consistent c1 -> consistent c2 -> contents c1 <> [] ->
  contents c2 = map (moved M b al s) (contents c1) ->
  e3_evaluate c2 (al * t + s) = on_value (affine M b) (e3_evaluate c1 t) /\
  e3_evaluate_derivative c2 (al * t + s) 1 =
    on_value (fun v => scaled (/ al) (linear M v)) (e3_evaluate_derivative c1 t 1) /\
  e3_evaluate_derivative c2 (al * t + s) 2 =
    on_value (fun v => scaled (/ (al * al)) (linear M v)) (e3_evaluate_derivative c1 t 2).
Proof.
  intros Ha H1 H2 Hne E.
  destruct (size_cases c1) as [X|[(t0 & k & X)|Hsz]]; [congruence| |].
  - rewrite X in E. cbn [map moved fst snd] in E.
    assert (A2 : forall (c : e3_curve R) t0 k t, contents c = [(t0, k)] -> e3_evaluate_derivative c t 2 = Ok None).
    { intros. unfold e3_evaluate_derivative, e3_evaluate_acceleration. cbn [N.eqb Pos.eqb].
      now rewrite (single_at c t1 k0 t2). }
    rewrite (A2 _ _ _ _ X), (A2 _ _ _ _ E). cbn [on_value].
    destruct (evaluate_single _ _ _ t X) as [P1 Q1].
    destruct (evaluate_single _ _ _ (al * t + s) E) as [P2 Q2].
    destruct (Req_EM_T t t0) as [->|Hn].
    + destruct (P1 eq_refl) as [-> ->]. destruct (P2 eq_refl) as [-> ->]. auto.
    + destruct (Q1 Hn) as [-> ->]. destruct Q2 as [-> ->]; [|auto].
      intros Z. apply Hn. apply (Rmult_eq_reg_l al); [simpl in Z|]; lra.
  - assert (Hsz2 : (2 <= size c2)%nat) by (rewrite contents_size, E, map_length, <- contents_size; auto).
    assert (Emin : min_time c2 = al * min_time c1 + s).
    { destruct (contents c1) as [|[t0 k0] r] eqn:Er; [congruence|].
      rewrite (min_contents _ _ _ _ Er). simpl in E. now rewrite (min_contents _ _ _ _ E). }
    assert (Emax : max_time c2 = al * max_time c1 + s).
    { destruct (contents c1) as [|[t0 k0] r _] eqn:Er using rev_ind; [congruence|].
      rewrite (contents_max _ _ _ _ Er). rewrite map_app in E. simpl in E.
      now rewrite (contents_max _ _ _ _ E). }
    destruct (Rle_lt_dec (min_time c1) t) as [L1|L1]; [destruct (Rle_lt_dec t (max_time c1)) as [L2|L2]|].
    + destruct (find_segment c1 t H1 Hsz (conj L1 L2)) as (u & ta & ka & tb & kb & v & Es & Hta & Htb).
      pose proof (consistent_incr _ _ _ _ _ _ _ H1 Es) as Hlt.
      assert (Es2 : contents c2 = map (moved M b al s) u ++
        (fst (moved M b al s (ta, ka)), snd (moved M b al s (ta, ka))) ::
        (fst (moved M b al s (tb, kb)), snd (moved M b al s (tb, kb))) :: map (moved M b al s) v).
      { rewrite E, Es, map_app. reflexivity. }
      assert (Ht : ta <= t <= tb) by lra.
      assert (Ht2 : al * ta + s <= al * t + s <= al * tb + s).
      { split; apply Rplus_le_compat_r, Rmult_le_compat_l; lra. }
      rewrite (evaluate_segment c1 _ _ _ _ _ _ t H1 Es Ht), (velocity_segment c1 _ _ _ _ _ _ t H1 Es Ht).
      rewrite (acceleration_segment c1 _ _ _ _ _ _ t H1 Es) by (destruct Htb; [left; lra|right; auto]).
      rewrite (evaluate_segment c2 _ _ _ _ _ _ (al * t + s) H2 Es2 Ht2).
      rewrite (velocity_segment c2 _ _ _ _ _ _ (al * t + s) H2 Es2 Ht2).
      rewrite (acceleration_segment c2 _ _ _ _ _ _ (al * t + s) H2 Es2).
      * cbn [on_value].
        rewrite segment_value_moved, segment_velocity_moved, segment_acceleration_moved by auto. auto.
      * destruct Htb as [Htb|[-> ->]]; [left|right; auto]. cbn [moved fst].
        split; [lra|]. apply Rplus_lt_compat_r, Rmult_lt_compat_l; lra.
    + destruct (evaluate_outside c1 t H1 Hsz) as (-> & -> & ->); [lra|].
      destruct (evaluate_outside c2 (al * t + s) H2 Hsz2) as (-> & -> & ->); [|auto].
      rewrite Emax. assert (al * max_time c1 < al * t) by (apply Rmult_lt_compat_l; lra). lra.
    + destruct (evaluate_outside c1 t H1 Hsz) as (-> & -> & ->); [lra|].
      destruct (evaluate_outside c2 (al * t + s) H2 Hsz2) as (-> & -> & ->); [|auto].
      rewrite Emin. assert (al * t < al * min_time c1) by (apply Rmult_lt_compat_l; lra). lra.
Qed.

(** The fit of transformed data. *)
Lemma nth_map_in {A B} (f : A -> B) l i d d' : (i < length l)%nat -> nth i (map f l) d = f (nth i l d').
Proof. intros L. rewrite (nth_indep _ d (f d')) by now rewrite map_length. apply map_nth. Qed.

Lemma fit_velocity_moved M b al s (ts : list R) (vs : list (vec3 R)) d0 d1 i :
  0 < al -> length ts = length vs -> (i < length ts)%nat -> increasing_times ts ->
  fit_velocity (map (fun t => al * t + s) ts) (map (affine M b) vs)
    (scaled (/ al) (linear M d0)) (scaled (/ al) (linear M d1)) i =
  scaled (/ al) (linear M (fit_velocity ts vs d0 d1 i)).
Proof.
  intros Ha Hl Hi Hinc. unfold fit_velocity. destruct i as [|j]; [reflexivity|].
  rewrite map_length. destruct (Nat.eqb_spec (S (S j)) (length ts)); [reflexivity|].
  rewrite !(nth_map_in (fun t => al * t + s) ts _ _ tzero), !(nth_map_in (affine M b) vs _ _ vzero) by lia.
  apply vec3_ext. intros a. rewrite coord_slope, coord_scaled, coord_linear, !coord_affine.
  change (vx ?u) with (coord AX u). change (vy ?u) with (coord AY u). change (vz ?u) with (coord AZ u).
  rewrite !coord_slope. cbn [tzero R_TimeOps].
  pose proof (Hinc j ltac:(lia)) as A1. pose proof (Hinc (S j) ltac:(lia)) as A2.
  unfold at_knot in *. set (x := nth j ts 0) in *. set (y := nth (S (S j)) ts 0) in *.
  cbn [coord]. field. repeat split; nra.
Qed.

Lemma fit_moved M b al s (ts : list R) (vs : list (vec3 R)) d0 d1 :
  0 < al -> length ts = length vs -> increasing_times ts ->
  combine (map (fun t => al * t + s) ts)
    (map (fit_knot (map (fun t => al * t + s) ts) (map (affine M b) vs)
       (scaled (/ al) (linear M d0)) (scaled (/ al) (linear M d1)))
       (seq 0 (length (map (fun t => al * t + s) ts)))) =
  map (moved M b al s) (combine ts (map (fit_knot ts vs d0 d1) (seq 0 (length ts)))).
Proof.
  intros Ha Hl Hinc. rewrite map_length.
  assert (X : map (fit_knot (map (fun t => al * t + s) ts) (map (affine M b) vs)
       (scaled (/ al) (linear M d0)) (scaled (/ al) (linear M d1))) (seq 0 (length ts)) =
     map (fun k => Knot (affine M b (k_pos k)) (scaled (/ al) (linear M (k_vel k))))
       (map (fit_knot ts vs d0 d1) (seq 0 (length ts)))).
  { rewrite map_map. apply map_ext_in. intros i Hi. apply in_seq in Hi.
    unfold fit_knot. cbn [k_pos k_vel].
    rewrite fit_velocity_moved by (auto; lia).
    rewrite (nth_map_in (affine M b) vs _ _ vzero) by lia. reflexivity. }
  rewrite X. generalize (map (fit_knot ts vs d0 d1) (seq 0 (length ts))) as ks. clear.
  induction ts as [|t ts IH]; intros [|k ks]; simpl; auto. now rewrite IH.
Qed.

Lemma increasing_moved al s ts : 0 < al -> increasing_times ts -> increasing_times (map (fun t => al * t + s) ts).
Proof.
  intros Ha Hi i L. rewrite map_length in L. unfold at_knot.
  rewrite !(nth_map_in (fun t => al * t + s) ts _ _ 0) by lia.
  apply Rplus_lt_compat_r, Rmult_lt_compat_l; auto. now apply Hi.
Qed.

(** ** Fitting a curve that is not empty *)

Lemma contents_holds {C} (m : mgr R C) t c : In (t, c) (contents m) <-> exists k, holds m t k c.
Proof.
  unfold contents, holds. rewrite in_map_iff. split.
  - intros (n & [= <- <-] & Hi). exists (n_key n), n. rewrite teq_refl. auto.
  - intros (k & n & Hi & Ht & _ & <-). apply teq_R in Ht. subst t. eauto.
Qed.

Lemma increasing_distinct ts : increasing_times ts -> pairwise_distinct ts.
Proof.
  unfold pairwise_distinct. induction ts as [|t ts IH]; intros Hi; constructor.
  - clear IH. revert t Hi. induction ts as [|t' ts IH]; intros t Hi; constructor.
    + apply increasing_cons in Hi as [H0 _]. specialize (H0 _ _ eq_refl).
      apply not_true_iff_false. rewrite teq_R. lra.
    + apply IH. apply increasing_cons in Hi as [H0 Hi]. apply increasing_cons in Hi as [H1 Hi].
      apply increasing_cons. split; auto. intros t'' r ->. specialize (H0 _ _ eq_refl).
      specialize (H1 _ _ eq_refl). lra.
  - apply IH. now apply increasing_cons in Hi.
Qed.

Lemma insert_merge {C} g (m : mgr R C) ts cs out :
  consistent m -> keys_below g m -> length ts = length cs -> increasing_times ts ->
  (g + N.of_nat (length ts) < key_mod)%N ->
  exists g' m' ks, insert_coefficients g m ts cs out = Ok (g', m', out ++ ks) /\
    consistent m' /\ keys_below g' m' /\ length ks = length ts /\
    forall t c, In (t, c) (contents m') <->
      In (t, c) (combine ts cs) \/ (In (t, c) (contents m) /\ ~ In t ts).
Proof.
  intros Hc Hb Hl Hi Hg. unfold insert_coefficients. rewrite Hl, Nat.eqb_refl, <- Hl.
  assert (Lc : length (combine ts cs) = length ts) by (rewrite combine_length; lia).
  destruct (insert_loop_spec (combine ts cs) g m out Hc Hb) as
    (g' & m' & ks & E & Hc' & Hb' & _ & _ & Lk & _ & _ & Hold & Hnew & Hkeep).
  { now rewrite Lc. }
  exists g', m', ks. split; [exact E|]. split; [exact Hc'|]. split; [exact Hb'|]. split; [congruence|].
  assert (Hd : pairwise_distinct (map fst (combine ts cs))).
  { rewrite map_fst_combine by auto. now apply increasing_distinct. }
  assert (LV : forall t c, last_value (combine ts cs) t = Some c <-> In (t, c) (combine ts cs)).
  { intros t c. rewrite last_value_distinct by auto. split.
    - intros (t' & Hx & Et). apply teq_R in Et. now subst.
    - intros Hx. exists t. rewrite teq_refl. auto. }
  assert (LN : forall t, last_value (combine ts cs) t = None <-> ~ In t ts).
  { intros t. split.
    - intros E0 Hx. apply (In_nth_error) in Hx as (i & Ei).
      destruct (nth_error cs i) as [c|] eqn:Ec.
      + assert (Y : last_value (combine ts cs) t = Some c); [|congruence].
        apply LV. apply (nth_error_In _ i). now apply nth_error_combine.
      + apply nth_error_None in Ec. assert (i < length ts)%nat by (apply nth_error_Some; congruence). lia.
    - intros Hx. destruct (last_value (combine ts cs) t) as [c|] eqn:E0; auto. exfalso. apply Hx.
      apply LV in E0. now apply in_combine_l in E0. }
  intros t c. rewrite !contents_holds. split.
  - intros [k Hk]. apply Hold in Hk. destruct (last_value (combine ts cs) t) as [c'|] eqn:E0.
    + subst c'. left. now apply LV.
    + right. split; [eauto|]. now apply LN.
  - intros [Hx|[[k Hk] Hx]].
    + apply LV in Hx. eauto.
    + exists k. apply Hkeep; auto. now apply LN.
Qed.

Lemma e3_fit_merge debug g (c : e3_curve R) ts vs d0 d1 out :
  consistent c -> keys_below g c -> length ts = length vs -> increasing_times ts ->
  (g + N.of_nat (length ts) < key_mod)%N ->
  exists g' c' ks, e3_fit_with_derivatives debug g c ts vs d0 d1 out = Ok (g', c', out ++ ks) /\
    consistent c' /\ keys_below g' c' /\
    forall t k, In (t, k) (contents c') <->
      In (t, k) (combine ts (map (fit_knot ts vs d0 d1) (seq 0 (length ts)))) \/
      (In (t, k) (contents c) /\ ~ In t ts).
Proof.
  intros Hc Hb Hl Hi Hg. unfold e3_fit_with_derivatives. rewrite Hl, Nat.eqb_refl, <- Hl.
  cbn [negb]. rewrite andb_false_r. rewrite e3_coefficients_ok by (auto; lia). cbn [bind].
  destruct (insert_merge g c ts (map (fit_knot ts vs d0 d1) (seq 0 (length ts))) out) as
    (g' & m' & ks & E & Hc' & Hb' & _ & Hx); auto.
  { now rewrite fit_knots_length. }
  exists g', m', ks. auto.
Qed.

(** ** Data on a line *)

Lemma coord_straight p v t a : coord a (straight p v t) = coord a p + t * coord a v.
Proof. now destruct a. Qed.

Lemma fit_velocity_straight (ts : list R) p v i :
  increasing_times ts -> (i < length ts)%nat ->
  fit_velocity ts (map (straight p v) ts) v v i = v.
Proof.
  intros Hi L. unfold fit_velocity. destruct i as [|j]; [reflexivity|].
  destruct (Nat.eqb_spec (S (S j)) (length ts)); [reflexivity|].
  rewrite !(nth_map_in (straight p v) ts _ _ 0) by lia. cbn [tzero R_TimeOps].
  pose proof (Hi j ltac:(lia)) as A1. pose proof (Hi (S j) ltac:(lia)) as A2. unfold at_knot in *.
  apply vec3_ext. intros a. rewrite coord_slope, !coord_straight. field. lra.
Qed.

Lemma hval_straight ta tb p v t : ta < tb -> hval ta tb (p + ta * v) v (p + tb * v) v t = p + t * v.
Proof. intros. unfold hval. field. lra. Qed.
Lemma hvel_straight ta tb p v t : ta < tb -> hvel ta tb (p + ta * v) v (p + tb * v) v t = v.
Proof. intros. unfold hvel. field. lra. Qed.
Lemma hacc_straight ta tb p v t : ta < tb -> hacc ta tb (p + ta * v) v (p + tb * v) v t = 0.
Proof. intros. unfold hacc. field. lra. Qed.
