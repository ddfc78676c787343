(** * The orientation along a whole SE3 curve *)

From Coquelicot Require Import Coquelicot.
From Coq Require Import List Reals Lra Lia Bool Arith NArith ZArith Permutation Sorted.
From Verif Require Import Base TimeOrder TimeInst KeyGen Manager ManagerSpec ManagerProofs ManagerProofs2
  ManagerProofs3 Num Sampling SamplingSpec SamplingProofs SplineSpec SetDataTraj HermiteE3 HermiteSpec HermiteE3Proofs
  Quat QuatSpec QuatProofs HermiteSE3 HermiteSE3Spec HermiteSE3Proofs.
Import ListNotations.
Local Open Scope R_scope.

Section Curve.
Variables (K : kindr R) (c : se3_curve R).
Hypothesis HK : exact_kindr K.
Hypothesis Hc : consistent (h_mgr c).
Hypothesis Hu : unit_knots c.

Lemma se3_test t : ~ (max_time (h_mgr c) = t /\ min_time (h_mgr c) = t) ->
  (neqb (max_time (h_mgr c)) t && neqb (min_time (h_mgr c)) t)%bool = false.
Proof.
  intros X. destruct (neqb (max_time (h_mgr c)) t && neqb (min_time (h_mgr c)) t)%bool eqn:E; auto.
  apply andb_true_iff in E as [E1 E2]. apply Reqb_eq in E1, E2. tauto.
Qed.

(** The piece of the curve that is used at [t]. *)
Lemma rot_piece u ta ka tb kb v t :
  contents (h_mgr c) = u ++ (ta, ka) :: (tb, kb) :: v -> ta <= t <= tb ->
  (exists p, se3_evaluate K c t = Ok (Some p)) /\ (exists w, se3_evaluate_derivative K c t 1 = Ok (Some w)) /\
  ((t < tb \/ v = []) -> rot_at K c t = se3_segment_rotation K ta tb ka kb t) /\
  ((t = tb /\ v <> []) -> rot_at K c t = qA kb) /\
  ang_at K c t = omega K ta tb ka kb t.
Proof.
  intros E Ht. pose proof (consistent_incr _ _ _ _ _ _ _ Hc E) as Hlt.
  assert (Ua : unit_quat (qA ka)) by (apply (Hu ta ka); rewrite E, in_app_iff; simpl; auto).
  assert (Ub : unit_quat (qA kb)) by (apply (Hu tb kb); rewrite E, in_app_iff; simpl; auto).
  destruct (bracket_R (h_mgr c) u ta ka tb kb v t Hc E Ht) as (Hn & n0 & n1 & Eg & Hb).
  unfold rot_at, ang_at, se3_evaluate_derivative. cbn [N.eqb Pos.eqb].
  unfold se3_evaluate. rewrite (se3_test _ Hn), Eg. cbn [bind p_rot t_ang].
  split; [eauto|]. split; [eauto|].
  destruct Hb as [(-> & -> & -> & -> & Hb)|(Et & Hv & E0 & Ek & L)].
  - split; [auto|]. split; [|reflexivity]. intros [-> Hv]. destruct Hb; [lra|congruence].
  - subst t. rewrite E0, Ek in *. split; [intros [X|X]; [lra|congruence]|]. split.
    + intros _. now apply rot_start.
    + rewrite omega_end by auto.
      change (omega K tb (n_time n1) kb (n_coef n1) tb = wA kb). now apply omega_start.
Qed.

Lemma rot_matrix_piece u ta ka tb kb v t x :
  contents (h_mgr c) = u ++ (ta, ka) :: (tb, kb) :: v -> ta <= t <= tb ->
  rotation_matrix (rot_at K c t) x = rotation_matrix (se3_segment_rotation K ta tb ka kb t) x.
Proof.
  intros E Ht. pose proof (consistent_incr _ _ _ _ _ _ _ Hc E) as Hlt.
  assert (Ua : unit_quat (qA ka)) by (apply (Hu ta ka); rewrite E, in_app_iff; simpl; auto).
  assert (Ub : unit_quat (qA kb)) by (apply (Hu tb kb); rewrite E, in_app_iff; simpl; auto).
  destruct (rot_piece u ta ka tb kb v t E Ht) as (_ & _ & R1 & R2 & _).
  destruct (Req_dec t tb) as [->|N].
  - destruct v as [|k v].
    + now rewrite R1 by auto.
    + rewrite R2 by (split; [auto|discriminate]). symmetry. apply same_rotation_matrix. now apply rot_end.
  - rewrite R1; [reflexivity|left; lra].
Qed.

(** A curve with one coefficient. *)
Lemma single_piece t0 k : contents (h_mgr c) = [(t0, k)] ->
  se3_evaluate K c t0 = Ok (Some (fst k)) /\ se3_evaluate_derivative K c t0 1 = Ok (Some (snd k)).
Proof.
  intros E. assert (exists n, nodes (h_mgr c) = [n] /\ n_time n = t0 /\ n_coef n = k) as (n & En & <- & <-).
  { unfold contents in E. destruct (nodes (h_mgr c)) as [|n [|? ?]]; simpl in E; try discriminate.
    injection E as <- <-. eauto. }
  unfold se3_evaluate, se3_evaluate_derivative, se3_first. cbn [N.eqb Pos.eqb].
  unfold max_time, min_time. rewrite En. cbn [last_node rev app].
  rewrite (proj2 (Reqb_eq _ _) eq_refl). auto.
Qed.

(** At the knots. *)
Lemma knot_rotation t k : In (t, k) (contents (h_mgr c)) ->
  (exists p, se3_evaluate K c t = Ok (Some p)) /\ (exists w, se3_evaluate_derivative K c t 1 = Ok (Some w)) /\
  same_rotation (rot_at K c t) (qA k) /\ ang_at K c t = wA k /\
  (t < max_time (h_mgr c) \/ size (h_mgr c) = 1%nat -> rot_at K c t = qA k).
Proof.
  intros Hi. apply in_split in Hi as (u & v & E). destruct v as [|[tb kb] v].
  - destruct u as [|[ta ka] u _] using rev_ind.
    + destruct (single_piece t k E) as [A B]. unfold rot_at, ang_at. rewrite A, B.
      repeat split; eauto. now left.
    + rewrite <- app_assoc in E. simpl in E.
      pose proof (consistent_incr _ _ _ _ _ _ _ Hc E) as Hlt.
      destruct (rot_piece u ta ka t k [] t E) as (A & B & R1 & _ & W); [lra|].
      assert (Ua : unit_quat (qA ka)) by (apply (Hu ta ka); rewrite E, in_app_iff; simpl; auto).
      assert (Ub : unit_quat (qA k)) by (apply (Hu t k); rewrite E, in_app_iff; simpl; auto).
      split; [exact A|]. split; [exact B|]. rewrite R1, W by auto.
      split; [now apply rot_end|]. split; [now apply omega_end|].
      intros [Hm|Hm]; exfalso.
      * assert (X : max_time (h_mgr c) = t); [|lra].
        apply (contents_max (h_mgr c) (u ++ [(ta, ka)]) t k). now rewrite <- app_assoc.
      * apply (f_equal (@length _)) in E. unfold contents in E. rewrite map_length, app_length in E.
        unfold size in Hm. simpl in E. lia.
  - pose proof (consistent_incr _ _ _ _ _ _ _ Hc E) as Hlt.
    destruct (rot_piece u t k tb kb v t E) as (A & B & R1 & _ & W); [lra|].
    assert (Ua : unit_quat (qA k)) by (apply (Hu t k); rewrite E, in_app_iff; simpl; auto).
    split; [exact A|]. split; [exact B|]. rewrite R1, W by auto.
    rewrite rot_start, omega_start by auto. repeat split; auto. now left.
Qed.

Lemma rot_at_unit t : (1 <= size (h_mgr c))%nat -> min_time (h_mgr c) <= t <= max_time (h_mgr c) ->
  (exists p, se3_evaluate K c t = Ok (Some p)) /\ unit_quat (rot_at K c t).
Proof.
  intros Hs Ht. destruct (Nat.eq_dec (size (h_mgr c)) 1) as [H1|H1].
  - assert (exists n, nodes (h_mgr c) = [n]) as (n & En).
    { unfold size in H1. destruct (nodes (h_mgr c)) as [|n [|? ?]]; simpl in H1; try lia. eauto. }
    assert (E : contents (h_mgr c) = [(n_time n, n_coef n)]) by (unfold contents; now rewrite En).
    unfold min_time, max_time in Ht. rewrite En in Ht. cbn in Ht.
    assert (t = n_time n) by lra. subst t. destruct (single_piece _ _ E) as [A _].
    unfold rot_at. rewrite A. split; [eauto|]. apply (Hu (n_time n) (n_coef n)). rewrite E. simpl. auto.
  - destruct (find_segment (h_mgr c) t Hc) as (u & ta & ka & tb & kb & v & E & H0 & H2); [lia|exact Ht|].
    destruct (rot_piece u ta ka tb kb v t E) as (A & _ & R1 & _); [destruct H2; lra|].
    split; [exact A|]. rewrite R1 by (destruct H2; tauto). apply rot_unit; auto.
    apply (Hu ta ka). rewrite E, in_app_iff. simpl. auto.
Qed.

Lemma se3_interior_cases t : (2 <= size (h_mgr c))%nat -> min_time (h_mgr c) < t < max_time (h_mgr c) ->
  exists u ta ka tb kb v, contents (h_mgr c) = u ++ (ta, ka) :: (tb, kb) :: v /\ t < tb /\
    (ta < t \/ (ta = t /\ exists u' tz kz, tz < ta /\ contents (h_mgr c) = u' ++ (tz, kz) :: (ta, ka) :: (tb, kb) :: v)).
Proof.
  intros Hsz Ht. destruct (find_segment (h_mgr c) t Hc Hsz) as (u & ta & ka & tb & kb & v & E & H0 & H1); [lra|].
  exists u, ta, ka, tb, kb, v. split; [exact E|].
  assert (Htb : t < tb).
  { destruct H1 as [H1|[-> ->]]; [auto|]. exfalso.
    assert (X : max_time (h_mgr c) = tb); [|lra]. apply (contents_max (h_mgr c) (u ++ [(ta, ka)]) tb kb).
    now rewrite <- app_assoc. }
  split; [exact Htb|]. destruct (Rle_lt_or_eq_dec _ _ H0) as [L|L]; [auto|]. right. split; [exact L|].
  destruct (first_or_before (h_mgr c) u ta ka _ E) as [[_ X]|(u' & tz & kz & E')]; [lra|].
  exists u', tz, kz. split; [|exact E']. exact (consistent_incr _ _ _ _ _ _ _ Hc E').
Qed.

(** The equation of motion of the rotated vectors. *)
Lemma rot_interior_derivative t x i : (2 <= size (h_mgr c))%nat -> min_time (h_mgr c) < t < max_time (h_mgr c) ->
  derivable_pt_lim (fun s => coord i (rotation_matrix (rot_at K c s) x)) t
    (coord i (cross (ang_at K c t) (rotation_matrix (rot_at K c t) x))).
Proof.
  intros Hsz Ht. destruct (se3_interior_cases t Hsz Ht) as (u & ta & ka & tb & kb & v & E & Htb & Hta).
  pose proof (consistent_incr _ _ _ _ _ _ _ Hc E) as Hlt.
  assert (Ua : unit_quat (qA ka)) by (apply (Hu ta ka); rewrite E, in_app_iff; simpl; auto).
  destruct (rot_piece u ta ka tb kb v t E) as (_ & _ & _ & _ & W); [lra|].
  rewrite (rot_matrix_piece _ _ _ _ _ _ t x E), W by lra.
  pose proof (fun tb b L s => rotation_derivative _ s _ x i (rot_motion K HK ta tb ka b L s Ua)) as D.
  destruct Hta as [Hta|(-> & u' & tz & kz & Hz & E')].
  - eapply glue_derivative with (d := Rmin (t - ta) (tb - t)).
    + apply Rmin_glb_lt; lra.
    + intros s Hs. pose proof (Rmin_l (t - ta) (tb - t)). cbn beta.
      rewrite (rot_matrix_piece _ _ _ _ _ _ s x E) by lra. reflexivity.
    + intros s Hs. pose proof (Rmin_r (t - ta) (tb - t)). cbn beta.
      rewrite (rot_matrix_piece _ _ _ _ _ _ s x E) by lra. reflexivity.
    + apply D. exact Hlt.
    + apply D. exact Hlt.
  - assert (Uz : unit_quat (qA kz)) by (apply (Hu tz kz); rewrite E', in_app_iff; simpl; auto).
    pose proof (rotation_derivative _ t _ x i (rot_motion K HK tz t kz ka Hz t Uz)) as D'.
    rewrite omega_end in D' by auto. rewrite (same_rotation_matrix _ _ x (rot_end K HK tz t kz ka Hz Uz Ua)) in D'.
    specialize (D tb kb Hlt t). rewrite omega_start in * by auto. rewrite rot_start in * by auto.
    eapply glue_derivative with (d := Rmin (t - tz) (tb - t)).
    + apply Rmin_glb_lt; lra.
    + intros s Hs. pose proof (Rmin_l (t - tz) (tb - t)). cbn beta.
      rewrite (rot_matrix_piece _ _ _ _ _ _ s x E') by lra. reflexivity.
    + intros s Hs. pose proof (Rmin_r (t - tz) (tb - t)). cbn beta.
      rewrite (rot_matrix_piece _ _ _ _ _ _ s x E) by lra. reflexivity.
    + exact D'.
    + exact D.
Qed.

Lemma ang_interior_continuous t i : (2 <= size (h_mgr c))%nat -> min_time (h_mgr c) < t < max_time (h_mgr c) ->
  continuity_pt (fun s => coord i (ang_at K c s)) t.
Proof.
  intros Hsz Ht. destruct (se3_interior_cases t Hsz Ht) as (u & ta & ka & tb & kb & v & E & Htb & Hta).
  pose proof (consistent_incr _ _ _ _ _ _ _ Hc E) as Hlt.
  assert (P : forall s, ta <= s <= tb -> ang_at K c s = omega K ta tb ka kb s) by (intros s Hs; apply (rot_piece _ _ _ _ _ _ s E Hs)).
  destruct Hta as [Hta|(-> & u' & tz & kz & Hz & E')].
  - eapply glue_continuity with (d := Rmin (t - ta) (tb - t)).
    + apply Rmin_glb_lt; lra.
    + intros s Hs. pose proof (Rmin_l (t - ta) (tb - t)). cbn beta. rewrite P by lra. reflexivity.
    + intros s Hs. pose proof (Rmin_r (t - ta) (tb - t)). cbn beta. rewrite P by lra. reflexivity.
    + now apply omega_continuous.
    + now apply omega_continuous.
  - assert (P' : forall s, tz <= s <= t -> ang_at K c s = omega K tz t kz ka s)
      by (intros s Hs; apply (rot_piece _ _ _ _ _ _ s E' Hs)).
    eapply glue_continuity with (d := Rmin (t - tz) (tb - t)).
    + apply Rmin_glb_lt; lra.
    + intros s Hs. pose proof (Rmin_l (t - tz) (tb - t)). cbn beta. rewrite P' by lra. reflexivity.
    + intros s Hs. pose proof (Rmin_r (t - tz) (tb - t)). cbn beta. rewrite P by lra. reflexivity.
    + now apply omega_continuous.
    + now apply omega_continuous.
Qed.

(** The quaternion itself strictly between two neighbouring knots. *)
Lemma rot_between t ta ka tb kb : adjacent (contents (h_mgr c)) (ta, ka) (tb, kb) -> ta < t < tb ->
  quat_derivative (rot_at K c) t (qscale (qmul (qpure (ang_at K c t)) (rot_at K c t)) (/ 2)).
Proof.
  intros (u & v & E) Ht. pose proof (consistent_incr _ _ _ _ _ _ _ Hc E) as Hlt.
  assert (Ua : unit_quat (qA ka)) by (apply (Hu ta ka); rewrite E, in_app_iff; simpl; auto).
  destruct (rot_piece u ta ka tb kb v t E) as (_ & _ & R1 & _ & W); [lra|].
  rewrite R1, W by (left; lra).
  pose proof (rot_motion K HK ta tb ka kb Hlt t Ua) as (D0 & D1 & D2 & D3).
  assert (P : forall s, ta <= s < tb -> rot_at K c s = se3_segment_rotation K ta tb ka kb s).
  { intros s Hs. destruct (rot_piece u ta ka tb kb v s E) as (_ & _ & Rs & _); [lra|]. apply Rs. left. lra. }
  assert (Hd : 0 < Rmin (t - ta) (tb - t)) by (apply Rmin_glb_lt; lra).
  pose proof (Rmin_l (t - ta) (tb - t)). pose proof (Rmin_r (t - ta) (tb - t)).
  repeat split.
  all: eapply glue_derivative; [exact Hd| | |eassumption|eassumption];
    intros s Hs; cbn beta; rewrite P by lra; reflexivity.
Qed.
End Curve.

(** ** Continuity on the whole range *)

Lemma cont_within f g t a b d : 0 < d -> a <= t <= b ->
  (forall s, a <= s <= b -> Rabs (s - t) < d -> f s = g s) -> continuity_pt g t ->
  forall eps, 0 < eps -> exists e, 0 < e /\
    forall s, a <= s <= b -> Rabs (s - t) < e -> Rabs (f s - f t) < eps.
Proof.
  intros Hd Ht Hg C eps He. destruct (C eps He) as (al & Ha & Hx). cbn [dist Base R_met] in Hx. unfold R_dist in Hx.
  exists (Rmin al d). split; [now apply Rmin_glb_lt|]. intros s Hs Hr.
  pose proof (Rmin_l al d). pose proof (Rmin_r al d).
  assert (Z : Rabs (t - t) = 0) by (replace (t - t) with 0 by ring; apply Rabs_R0).
  rewrite (Hg s Hs), (Hg t Ht) by lra.
  destruct (Req_dec s t) as [->|N]; [replace (g t - g t) with 0 by ring; rewrite Rabs_R0; exact He|].
  apply Hx. split; [split; [exact I|congruence]|lra].
Qed.

Section CurveCont.
Variables (K : kindr R) (c : se3_curve R).
Hypothesis HK : exact_kindr K.
Hypothesis Hc : consistent (h_mgr c).
Hypothesis Hu : unit_knots c.

Lemma rot_continuous_on x i : (2 <= size (h_mgr c))%nat ->
  continuous_on (fun s => coord i (rotation_matrix (rot_at K c s) x)) (min_time (h_mgr c)) (max_time (h_mgr c)) /\
  continuous_on (fun s => coord i (ang_at K c s)) (min_time (h_mgr c)) (max_time (h_mgr c)).
Proof.
  intros Hsz. split; intros t Ht.
  all: destruct (find_segment (h_mgr c) t Hc Hsz Ht) as (u & ta & ka & tb & kb & v & E & H0 & H1);
    pose proof (consistent_incr _ _ _ _ _ _ _ Hc E) as Hlt;
    assert (Ua : unit_quat (qA ka)) by (apply (Hu ta ka); rewrite E, in_app_iff; simpl; auto);
    destruct (Rle_lt_or_eq_dec _ _ (proj1 Ht)) as [L1|L1];
    [destruct (Rle_lt_or_eq_dec _ _ (proj2 Ht)) as [L2|L2]|].
  all: try solve [apply cont_within with (g := fun s => coord i (rotation_matrix (rot_at K c s) x)) (d := 1); auto; [lra|];
    eapply dlim_cont; apply rot_interior_derivative; auto].
  all: try solve [apply cont_within with (g := fun s => coord i (ang_at K c s)) (d := 1); auto; [lra|];
    apply ang_interior_continuous; auto].
  all: assert (Et : t <= tb) by (destruct H1; lra).
  all: assert (Cr : continuity_pt (fun s => coord i (rotation_matrix (se3_segment_rotation K ta tb ka kb s) x)) t) by
    (eapply dlim_cont; exact (rotation_derivative _ t _ x i (rot_motion K HK ta tb ka kb Hlt t Ua))).
  all: assert (Co := omega_continuous K HK ta tb ka kb Hlt t i).
  all: assert (Pr : forall s, ta <= s <= tb -> coord i (rotation_matrix (rot_at K c s) x) =
      coord i (rotation_matrix (se3_segment_rotation K ta tb ka kb s) x)) by
    (intros s Hs; now rewrite (rot_matrix_piece K c HK Hc Hu _ _ _ _ _ _ s x E Hs)).
  all: assert (Po : forall s, ta <= s <= tb -> coord i (ang_at K c s) = coord i (omega K ta tb ka kb s)) by
    (intros s Hs; now destruct (rot_piece K c HK Hc Hu _ _ _ _ _ _ s E Hs) as (_ & _ & _ & _ & ->)).
  all: assert (Ea : min_time (h_mgr c) <= ta) by
    (destruct (contents_split _ _ _ _ _ _ _ E) as (y & n0 & n1 & z & En & <- & _);
     assert (I0 : In n0 (nodes (h_mgr c))) by (rewrite En, in_app_iff; simpl; auto);
     pose proof (min_time_bound _ n0 Hc I0) as X; apply tle_R in X; exact X).
  - (* right end *)
    apply cont_within with (g := fun s => coord i (rotation_matrix (se3_segment_rotation K ta tb ka kb s) x))
      (d := t - ta); auto.
    + destruct H1 as [H1|[H1 _]]; [|lra]. exfalso.
      destruct (contents_split _ _ _ _ _ _ _ E) as (y & n0 & n1 & z & En & _ & _ & X & _).
      assert (I1 : In n1 (nodes (h_mgr c))) by (rewrite En, in_app_iff; simpl; auto).
      pose proof (max_time_bound _ n1 Hc I1) as B. apply tle_R in B. lra.
    + intros s Hs Hr. apply Pr. apply Rabs_def2 in Hr. lra.
  - apply cont_within with (g := fun s => coord i (rotation_matrix (se3_segment_rotation K ta tb ka kb s) x))
      (d := tb - ta); auto; [lra|].
    intros s Hs Hr. apply Pr. apply Rabs_def2 in Hr. lra.
  - apply cont_within with (g := fun s => coord i (omega K ta tb ka kb s)) (d := t - ta); auto.
    + destruct H1 as [H1|[H1 _]]; [|lra]. exfalso.
      destruct (contents_split _ _ _ _ _ _ _ E) as (y & n0 & n1 & z & En & _ & _ & X & _).
      assert (I1 : In n1 (nodes (h_mgr c))) by (rewrite En, in_app_iff; simpl; auto).
      pose proof (max_time_bound _ n1 Hc I1) as B. apply tle_R in B. lra.
    + intros s Hs Hr. apply Po. apply Rabs_def2 in Hr. lra.
  - apply cont_within with (g := fun s => coord i (omega K ta tb ka kb s)) (d := tb - ta); auto; [lra|].
    intros s Hs Hr. apply Po. apply Rabs_def2 in Hr. lra.
Qed.
End CurveCont.

(** ** A change of frame *)

(** Two managers with corresponding contents are searched alike. *)
Section Similar.
Context {T A B : Type} `{TimeOps T} (f : A -> B).

Definition similar (n : node T A) (n' : node T B) : Prop := n_time n' = n_time n /\ n_coef n' = f (n_coef n).
Definition pair_similar (x : node T A * node T A) (y : node T B * node T B) : Prop :=
  similar (fst x) (fst y) /\ similar (snd x) (snd y).
Definition opt_similar (x : option (node T A * node T A)) (y : option (node T B * node T B)) : Prop :=
  match x, y with Some a, Some b => pair_similar a b | None, None => True | _, _ => False end.

Lemma similar_contents : forall (l : list (node T A)) (l' : list (node T B)),
  map (fun n => (n_time n, n_coef n)) l' = map (fun tc => (fst tc, f (snd tc))) (map (fun n => (n_time n, n_coef n)) l) ->
  Forall2 similar l l'.
Proof.
  induction l as [|n l IH]; intros [|n' l']; simpl; try discriminate; [constructor|].
  intros [= E1 E2 E3]. constructor; [split; assumption|]. apply IH. exact E3.
Qed.

Lemma similar_last l l' : Forall2 similar l l' ->
  match last_node l, last_node l' with Some a, Some b => similar a b | None, None => True | _, _ => False end.
Proof.
  intros F. unfold last_node.
  assert (F' : Forall2 similar (rev l) (rev l')).
  { clear - F. induction F; simpl; [constructor|]. apply Forall2_app; auto. }
  destruct F'; auto.
Qed.

Lemma similar_bracket : forall l l', Forall2 similar l l' -> forall p p' t, similar p p' ->
  opt_similar (bracket_from p l t) (bracket_from p' l' t).
Proof.
  induction 1 as [|n n' l l' Hn F IH]; intros p p' t Hp; [exact I|]. cbn [bracket_from].
  rewrite (proj1 Hn). destruct (tlt t (n_time n)); [split; assumption|]. now apply IH.
Qed.

Lemma similar_times (m : mgr T A) (m' : mgr T B) : Forall2 similar (nodes m) (nodes m') ->
  min_time m' = min_time m /\ max_time m' = max_time m.
Proof.
  intros F. pose proof (similar_last _ _ F) as L. unfold min_time, max_time. split.
  - destruct F as [|? ? ? ? [X _]]; auto.
  - destruct (last_node (nodes m)), (last_node (nodes m')); try tauto. now destruct L.
Qed.

Lemma similar_get_at (m : mgr T A) (m' : mgr T B) t : Forall2 similar (nodes m) (nodes m') ->
  opt_similar (get_coefficients_at m t) (get_coefficients_at m' t).
Proof.
  intros F. unfold get_coefficients_at. rewrite (proj2 (similar_times _ _ F)).
  generalize (max_time m) as mx. intros mx. unfold empty.
  remember (nodes m) as l. remember (nodes m') as l'. clear Heql Heql' m m'.
  destruct F as [|n n' l l' Hn F]; [exact I|].
  destruct (teq t mx).
  - unfold last_two. assert (F' : Forall2 similar (rev (n :: l)) (rev (n' :: l'))).
    { assert (G : Forall2 similar (n :: l) (n' :: l')) by now constructor.
      clear - G. induction G; simpl; [constructor|]. apply Forall2_app; auto. }
    destruct F' as [|a a' r r' Ha F']; [exact I|]. destruct F' as [|b b' q q' Hb F']; [exact I|].
    split; assumption.
  - unfold bracket_upper. rewrite (proj1 Hn). destruct (tlt t (n_time n)); [exact I|]. now apply similar_bracket.
Qed.
End Similar.

Lemma cubic_affine (p : quat R) tr (k1 k2 : knot R) ta tb t : ta < tb ->
  e3_segment_value ta tb (Knot (vadd (rotation_matrix p (k_pos k1)) tr) (rotation_matrix p (k_vel k1)))
    (Knot (vadd (rotation_matrix p (k_pos k2)) tr) (rotation_matrix p (k_vel k2))) t =
  vadd (rotation_matrix p (e3_segment_value ta tb k1 k2 t)) tr.
Proof.
  intros Hl. destruct p as [w x y z], tr as [r1 r2 r3], k1 as [[a1 a2 a3] [v1 v2 v3]], k2 as [[b1 b2 b3] [u1 u2 u3]].
  apply vec3_ext. intros []; cbn; numR; field; lra.
Qed.

Lemma cubic_linear (p : quat R) tr (k1 k2 : knot R) ta tb t : ta < tb ->
  e3_segment_velocity ta tb (Knot (vadd (rotation_matrix p (k_pos k1)) tr) (rotation_matrix p (k_vel k1)))
    (Knot (vadd (rotation_matrix p (k_pos k2)) tr) (rotation_matrix p (k_vel k2))) t =
  rotation_matrix p (e3_segment_velocity ta tb k1 k2 t).
Proof.
  intros Hl. destruct p as [w x y z], tr as [r1 r2 r3], k1 as [[a1 a2 a3] [v1 v2 v3]], k2 as [[b1 b2 b3] [u1 u2 u3]].
  apply vec3_ext. intros []; cbn; numR; field; lra.
Qed.

Section Frame.
Variables (K : kindr R) (p : quat R) (tr : vec3 R).
Hypothesis Hp : unit_quat p.

Lemma unrotate_move q v : rotation_matrix (qconj (qmul p q)) (rotation_matrix p v) = rotation_matrix (qconj q) v.
Proof. now rewrite qconj_mul, rotation_mul, rotation_inv'. Qed.

Lemma w1_move s k : se3_w1 s (move_knot p tr k) = se3_w1 s k.
Proof.
  unfold se3_w1. cbn [move_knot fst snd move_pose move_twist p_rot t_ang].
  rewrite !qunrotate_matrix, <- rotation_scale. apply unrotate_move.
Qed.

Lemma w2_move s a b : se3_w2 K s (move_knot p tr a) (move_knot p tr b) = se3_w2 K s a b.
Proof.
  unfold se3_w2. rewrite !w1_move. cbn [move_knot fst snd move_pose p_rot].
  rewrite qconj_mul, !qmul_assoc. do 3 f_equal.
  now rewrite <- (qmul_assoc (qconj p)), unit_conj_l, qmul_one_l.
Qed.

Lemma rotation_move ta tb a b t :
  se3_segment_rotation K ta tb (move_knot p tr a) (move_knot p tr b) t = qmul p (se3_segment_rotation K ta tb a b t).
Proof.
  unfold se3_segment_rotation. cbv zeta. rewrite !w1_move, w2_move. cbn [move_knot fst move_pose p_rot].
  now rewrite !qmul_assoc.
Qed.

Lemma qdiff_move ta tb a b t :
  se3_segment_qdiff K ta tb (move_knot p tr a) (move_knot p tr b) t = qmul p (se3_segment_qdiff K ta tb a b t).
Proof.
  unfold se3_segment_qdiff. cbv zeta. rewrite !w1_move, w2_move. cbn [move_knot fst move_pose p_rot].
  rewrite !qmul_assoc, <- !qmul_add_r, <- qmul_scale_r. reflexivity.
Qed.

Variables c c' : se3_curve R.
Hypothesis Hc : consistent (h_mgr c).
Hypothesis Hm : contents (h_mgr c') = map (fun tk => (fst tk, move_knot p tr (snd tk))) (contents (h_mgr c)).

Lemma bracket_lt t n0 n1 : get_coefficients_at (h_mgr c) t = Some (n0, n1) -> n_time n0 < n_time n1.
Proof.
  intros Eg. destruct (get_at_some _ t n0 n1 Hc Eg) as (a & b & En & _).
  apply (consistent_incr (h_mgr c) (map (fun n => (n_time n, n_coef n)) a) (n_time n0) (n_coef n0) (n_time n1)
    (n_coef n1) (map (fun n => (n_time n, n_coef n)) b) Hc).
  unfold contents. now rewrite En, map_app.
Qed.

Lemma frame_evaluate t :
  se3_evaluate K c' t = on_value (move_pose p tr) (se3_evaluate K c t) /\
  se3_evaluate_derivative K c' t 1 = on_value (move_twist p) (se3_evaluate_derivative K c t 1).
Proof.
  pose proof (similar_contents (move_knot p tr) (nodes (h_mgr c)) (nodes (h_mgr c')) Hm) as F.
  pose proof (similar_get_at (move_knot p tr) (h_mgr c) (h_mgr c') t F) as G.
  destruct (similar_times (move_knot p tr) (h_mgr c) (h_mgr c') F) as [E0 E1].
  unfold se3_evaluate_derivative. cbn [N.eqb Pos.eqb]. unfold se3_evaluate. rewrite E0, E1.
  destruct (neqb (max_time (h_mgr c)) t && neqb (min_time (h_mgr c)) t)%bool.
  - unfold se3_first. destruct F as [|n n' l l' [_ En] _]; [split; reflexivity|]. rewrite En. split; reflexivity.
  - destruct (get_coefficients_at (h_mgr c) t) as [[a b]|] eqn:Eg, (get_coefficients_at (h_mgr c') t) as [[a' b']|];
      try contradiction; [|split; reflexivity].
    pose proof (bracket_lt _ _ _ Eg) as Hlt.
    destruct G as [[Ta Ca] [Tb Cb]]. cbn [fst snd] in *. rewrite Ta, Tb, Ca, Cb.
    cbn [bind on_value p_rot]. unfold e3_knot. cbn [move_knot fst snd move_pose move_twist p_pos t_lin].
    change (Pose (vadd (rotation_matrix p (p_pos (fst (n_coef a)))) tr) (qmul p (p_rot (fst (n_coef a)))),
      Twist (rotation_matrix p (t_lin (snd (n_coef a)))) (rotation_matrix p (t_ang (snd (n_coef a)))))
      with (move_knot p tr (n_coef a)).
    rewrite rotation_move, qdiff_move.
    pose proof (cubic_affine p tr (e3_knot (n_coef a)) (e3_knot (n_coef b)) _ _ t Hlt) as V.
    pose proof (cubic_linear p tr (e3_knot (n_coef a)) (e3_knot (n_coef b)) _ _ t Hlt) as W.
    unfold e3_knot in V, W. cbn [k_pos k_vel] in V, W. rewrite V, W.
    unfold on_value, move_pose, move_twist. cbn [bind option_map p_pos p_rot t_lin t_ang]. split; [reflexivity|].
    rewrite !qrotate_matrix, rotation_mul, qconj_mul, qmul_assoc, <- (qmul_assoc (qconj p)), unit_conj_l, qmul_one_l by auto.
    reflexivity.
Qed.
End Frame.
