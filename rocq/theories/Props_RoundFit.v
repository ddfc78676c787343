(** * C92: rounding errors of fitting and evaluating a cubic Hermite E3 curve *)

From Coq Require Import List Bool Arith NArith ZArith Reals Lra Lia Sorting.Sorted.
From Flocq Require Import Core IEEE754.BinarySingleNaN.
From Verif Require Import Base TimeOrder TimeB64 TimeInst KeyGen Manager ManagerSpec ManagerProofs ManagerProofs2
  Num NumB64 HermiteE3 HermiteSpec HermiteE3Proofs HermiteB64 HermiteErr SamplingProofs Props_Binary64 Props_Rounding.
Import ListNotations.
Local Open Scope R_scope.

(** ** Curves over the reals whose knot velocities differ a little *)

Definition rclose (e : R) (v w : vec3 R) : Prop := forall a, Rabs (coord a v - coord a w) <= e.

Definition ragrees (e : R) (o o' : outcome (option (vec3 R))) : Prop :=
  match o, o' with
  | Ok (Some v), Ok (Some r) => rclose e v r
  | Ok None, Ok None => True
  | UB, UB => True
  | _, _ => False
  end.

Lemma agrees_trans e e' o o1 o2 : agrees e o o1 -> ragrees e' o1 o2 -> agrees (e + e') o o2.
Proof.
  destruct o as [[v|]| | |], o1 as [[r|]| | |], o2 as [[w|]| | |]; simpl; try tauto.
  intros (F & X & Y & Z) H. split; [exact F|]. pose proof (H AX). pose proof (H AY). pose proof (H AZ). cbn [coord] in *.
  repeat split; unfold Rabs in *; repeat destruct Rcase_abs; lra.
Qed.

Lemma rclose_refl e v : 0 <= e -> rclose e v v.
Proof. intros He a. rewrite Rminus_diag_eq, Rabs_R0; auto. Qed.

(** Same times and positions; along no segment do the velocities differ by more than [E]. *)
Record alike (E : R) (r1 r2 : e3_curve R) : Prop := {
  al_times : map fst (contents r1) = map fst (contents r2);
  al_positions : map (fun x => k_pos (snd x)) (contents r1) = map (fun x => k_pos (snd x)) (contents r2);
  al_single : forall t k k', contents r1 = [(t, k)] -> contents r2 = [(t, k')] -> k_vel k = k_vel k';
  al_segments : forall u ta ka tb kb v u' ka' kb' v',
    contents r1 = u ++ (ta, ka) :: (tb, kb) :: v -> contents r2 = u' ++ (ta, ka') :: (tb, kb') :: v' ->
    length u = length u' -> forall a,
    Rabs (coord a (k_vel ka) - coord a (k_vel ka')) * (tb - ta) <= E /\
    Rabs (coord a (k_vel kb) - coord a (k_vel kb')) * (tb - ta) <= E
}.

Lemma map_split {A B} (f : A -> B) : forall l l' u x y v, map f l = map f l' -> l = u ++ x :: y :: v ->
  exists u' x' y' v', l' = u' ++ x' :: y' :: v' /\ length u = length u' /\ f x = f x' /\ f y = f y' /\ length v = length v'.
Proof.
  intros l l' u x y v E ->. revert l' E. induction u as [|a u IH]; intros l' E.
  - destruct l' as [|x' [|y' v']]; try discriminate. injection E as E1 E2 E3.
    exists [], x', y', v'. repeat split; auto. apply (f_equal (@length _)) in E3. now rewrite !map_length in E3.
  - destruct l' as [|a' l']; [discriminate|]. injection E as E1 E2.
    destruct (IH l' E2) as (u' & x' & y' & v' & -> & L & Q). exists (a' :: u'), x', y', v'. simpl. auto.
Qed.

Lemma min_fst (c : e3_curve R) : min_time c = hd 0 (map fst (contents c)).
Proof. unfold min_time, contents. now destruct (nodes c). Qed.
Lemma max_fst (c : e3_curve R) : max_time c = hd 0 (rev (map fst (contents c))).
Proof. unfold max_time, last_node, contents. rewrite map_map, <- map_rev. now destruct (rev (nodes c)). Qed.

Section Alike.
Variables (E D : R) (r1 r2 : e3_curve R).
Hypothesis HE : 0 <= E.
Hypothesis HD : 0 < D.
Hypothesis C1 : consistent r1.
Hypothesis C2 : consistent r2.
Hypothesis HA : alike E r1 r2.
Hypothesis HL : forall u ta ka tb kb v, contents r1 = u ++ (ta, ka) :: (tb, kb) :: v -> D <= tb - ta.

Lemma alike_size : size r1 = size r2.
Proof. rewrite !contents_size. rewrite <- (map_length fst), (al_times _ _ _ HA). apply map_length. Qed.

Lemma alike_min : min_time r1 = min_time r2.
Proof. rewrite !min_fst. now rewrite (al_times _ _ _ HA). Qed.
Lemma alike_max : max_time r1 = max_time r2.
Proof. rewrite !max_fst. now rewrite (al_times _ _ _ HA). Qed.

Lemma alike_segment u ta ka tb kb v : contents r1 = u ++ (ta, ka) :: (tb, kb) :: v ->
  exists u' ka' kb' v', contents r2 = u' ++ (ta, ka') :: (tb, kb') :: v' /\
    k_pos ka = k_pos ka' /\ k_pos kb = k_pos kb' /\ (v = [] -> v' = []) /\ D <= tb - ta /\
    forall a, Rabs (coord a (k_vel ka) - coord a (k_vel ka')) * (tb - ta) <= E /\
      Rabs (coord a (k_vel kb) - coord a (k_vel kb')) * (tb - ta) <= E.
Proof.
  intros Ec.
  assert (Em : map (fun x => (fst x, k_pos (snd x))) (contents r1) = map (fun x => (fst x, k_pos (snd x))) (contents r2)).
  { pose proof (al_times _ _ _ HA) as X. pose proof (al_positions _ _ _ HA) as Y. revert X Y.
    generalize (contents r1) (contents r2). intros l. induction l as [|x l IH]; intros [|y l'] X Y; try discriminate; auto.
    injection X as X1 X2. injection Y as Y1 Y2. simpl. f_equal; [now f_equal|auto]. }
  destruct (map_split _ _ _ _ _ _ _ Em Ec) as (u' & [ta' ka'] & [tb' kb'] & v' & E2 & Lu & [= <- Pa] & [= <- Pb] & Lv).
  exists u', ka', kb', v'. split; [exact E2|]. split; [exact Pa|]. split; [exact Pb|].
  split; [intros ->; destruct v'; [auto|discriminate]|]. split; [exact (HL _ _ _ _ _ _ Ec)|].
  exact (al_segments _ _ _ HA _ _ _ _ _ _ _ _ _ _ Ec E2 Lu).
Qed.

Lemma fraction ta tb t : ta <= t <= tb -> 0 < tb - ta -> 0 <= (t - ta) / (tb - ta) <= 1.
Proof.
  intros Ht Hl. split.
  - apply Rmult_le_pos; [lra|]. left. now apply Rinv_0_lt_compat.
  - apply Rmult_le_reg_r with (tb - ta); [exact Hl|]. unfold Rdiv. rewrite Rmult_assoc, Rinv_l by lra. lra.
Qed.

Lemma term_bound x q L B : Rabs x * L <= E -> 0 < L -> - B <= q <= B -> Rabs (x * (q * L)) <= B * E.
Proof.
  intros Hx HL' Hq. assert (0 <= B) by lra. replace (x * (q * L)) with (q * (x * L)) by ring. rewrite Rabs_mult. apply Rmult_le_compat; auto using Rabs_pos.
  - now apply Rabs_le.
  - rewrite Rabs_mult, (Rabs_pos_eq L); lra.
Qed.

Lemma small_diff x L : Rabs x * L <= E -> D <= L -> Rabs x <= E / D.
Proof.
  intros Hx HL'. apply Rmult_le_reg_r with D; [exact HD|]. unfold Rdiv. rewrite Rmult_assoc, Rinv_l by lra.
  pose proof (Rabs_pos x). nra.
Qed.

Lemma alike_value t : ragrees (2 / 5 * E) (e3_evaluate r1 t) (e3_evaluate r2 t).
Proof.
  destruct (size_cases r1) as [E1|[(t0 & k & E1)|Hs]].
  - assert (E2 : contents r2 = []) by (pose proof (al_times _ _ _ HA) as X; rewrite E1 in X; destruct (contents r2); auto; discriminate).
    destruct (evaluate_empty r1 t E1) as [A1 B1], (evaluate_empty r2 t E2) as [A2 B2].
    destruct (Req_dec t 0) as [T|T]; [rewrite (proj1 (A1 T)), (proj1 (A2 T))|rewrite (proj1 (B1 T)), (proj1 (B2 T))]; exact I.
  - pose proof (al_times _ _ _ HA) as X. pose proof (al_positions _ _ _ HA) as Y. rewrite E1 in X, Y.
    destruct (contents r2) as [|[t' k'] [|? ?]] eqn:E2; try discriminate. injection X as <-. injection Y as Y.
    destruct (evaluate_single r1 t0 k t E1) as [A1 B1], (evaluate_single r2 t0 k' t E2) as [A2 B2].
    destruct (Req_dec t t0) as [T|T]; [rewrite (proj1 (A1 T)), (proj1 (A2 T))|rewrite (proj1 (B1 T)), (proj1 (B2 T)); exact I].
    cbn [ragrees]. rewrite Y. apply rclose_refl. lra.
  - assert (Hs2 : (2 <= size r2)%nat) by (rewrite <- alike_size; exact Hs).
    destruct (Rle_dec (min_time r1) t) as [T1|T1]; [destruct (Rle_dec t (max_time r1)) as [T2|T2]|].
    + destruct (find_segment r1 t C1 Hs (conj T1 T2)) as (u & ta & ka & tb & kb & v & Ec & H1 & H2).
      assert (H3 : ta <= t <= tb) by (destruct H2 as [?|[? _]]; lra).
      destruct (alike_segment _ _ _ _ _ _ Ec) as (u' & ka' & kb' & v' & Ec' & Pa & Pb & _ & HL1 & HV).
      rewrite (evaluate_segment _ _ _ _ _ _ _ _ C1 Ec H3), (evaluate_segment _ _ _ _ _ _ _ _ C2 Ec' H3).
      cbn [ragrees]. intros a. rewrite !coord_value. rewrite Pa, Pb. destruct (HV a) as [Va Vb].
      unfold hval. pose proof (fraction ta tb t H3 ltac:(lra)) as Hx. set (x := (t - ta) / (tb - ta)) in *.
      pose proof (beta2_range x Hx). pose proof (beta3_range x Hx).
      pose proof (term_bound _ (x * x * x - 2 * (x * x) + x) _ (1 / 5) Va ltac:(lra) ltac:(lra)) as W1.
      pose proof (term_bound _ (x * x * x - x * x) _ (1 / 5) Vb ltac:(lra) ltac:(lra)) as W2.
      match goal with |- Rabs ?e <= _ => match type of W1 with Rabs ?e1 <= _ => match type of W2 with Rabs ?e2 <= _ =>
        replace e with (e1 + e2) by ring end end end.
      eapply Rle_trans; [apply Rabs_triang|]. lra.
    + destruct (evaluate_outside r1 t C1 Hs ltac:(lra)) as [-> _].
      destruct (evaluate_outside r2 t C2 Hs2) as [-> _]; [rewrite <- alike_min, <- alike_max; lra|exact I].
    + destruct (evaluate_outside r1 t C1 Hs ltac:(lra)) as [-> _].
      destruct (evaluate_outside r2 t C2 Hs2) as [-> _]; [rewrite <- alike_min, <- alike_max; lra|exact I].
Qed.

Lemma factor_bound x q e B : Rabs x <= e -> - B <= q <= B -> Rabs (x * q) <= B * e.
Proof.
  intros Hx Hq. rewrite Rabs_mult, Rmult_comm. apply Rmult_le_compat; auto using Rabs_pos. now apply Rabs_le.
Qed.

Lemma alike_velocity t : ragrees (2 * (E / D)) (e3_evaluate_derivative r1 t 1) (e3_evaluate_derivative r2 t 1).
Proof.
  assert (HED : 0 <= E / D) by (apply Rmult_le_pos; [exact HE|left; now apply Rinv_0_lt_compat]).
  destruct (size_cases r1) as [E1|[(t0 & k & E1)|Hs]].
  - assert (E2 : contents r2 = []) by (pose proof (al_times _ _ _ HA) as X; rewrite E1 in X; destruct (contents r2); auto; discriminate).
    destruct (evaluate_empty r1 t E1) as [A1 B1], (evaluate_empty r2 t E2) as [A2 B2].
    destruct (Req_dec t 0) as [T|T]; [rewrite (proj2 (A1 T)), (proj2 (A2 T))|rewrite (proj2 (B1 T)), (proj2 (B2 T))]; exact I.
  - pose proof (al_times _ _ _ HA) as X. rewrite E1 in X.
    destruct (contents r2) as [|[t' k'] [|? ?]] eqn:E2; try discriminate. injection X as <-.
    pose proof (al_single _ _ _ HA _ _ _ E1 E2) as Y.
    destruct (evaluate_single r1 t0 k t E1) as [A1 B1], (evaluate_single r2 t0 k' t E2) as [A2 B2].
    destruct (Req_dec t t0) as [T|T]; [rewrite (proj2 (A1 T)), (proj2 (A2 T))|rewrite (proj2 (B1 T)), (proj2 (B2 T)); exact I].
    cbn [ragrees]. rewrite Y. apply rclose_refl. lra.
  - assert (Hs2 : (2 <= size r2)%nat) by (rewrite <- alike_size; exact Hs).
    destruct (Rle_dec (min_time r1) t) as [T1|T1]; [destruct (Rle_dec t (max_time r1)) as [T2|T2]|].
    + destruct (find_segment r1 t C1 Hs (conj T1 T2)) as (u & ta & ka & tb & kb & v & Ec & H1 & H2).
      assert (H3 : ta <= t <= tb) by (destruct H2 as [?|[? _]]; lra).
      destruct (alike_segment _ _ _ _ _ _ Ec) as (u' & ka' & kb' & v' & Ec' & Pa & Pb & _ & HL1 & HV).
      rewrite (velocity_segment _ _ _ _ _ _ _ _ C1 Ec H3), (velocity_segment _ _ _ _ _ _ _ _ C2 Ec' H3).
      cbn [ragrees]. intros a. rewrite !coord_velocity. rewrite Pa, Pb. destruct (HV a) as [Va Vb].
      unfold hvel. pose proof (fraction ta tb t H3 ltac:(lra)) as Hx. set (x := (t - ta) / (tb - ta)) in *.
      pose proof (x2_range x Hx).
      assert (G1 : - 1 <= 3 * (x * x) - 4 * x + 1 <= 1) by (pose proof (Rle_0_sqr (x - 2 / 3)); unfold Rsqr in *; nra).
      assert (G2 : - 1 <= 3 * (x * x) - 2 * x <= 1) by (pose proof (Rle_0_sqr (x - 1 / 3)); unfold Rsqr in *; nra).
      pose proof (factor_bound _ _ _ 1 (small_diff _ _ Va HL1) G1) as W1.
      pose proof (factor_bound _ _ _ 1 (small_diff _ _ Vb HL1) G2) as W2.
      match goal with |- Rabs ?e <= _ => match type of W1 with Rabs ?e1 <= _ => match type of W2 with Rabs ?e2 <= _ =>
        replace e with (e1 + e2) by ring end end end.
      eapply Rle_trans; [apply Rabs_triang|]. lra.
    + destruct (evaluate_outside r1 t C1 Hs ltac:(lra)) as (_ & -> & _).
      destruct (evaluate_outside r2 t C2 Hs2) as (_ & -> & _); [rewrite <- alike_min, <- alike_max; lra|exact I].
    + destruct (evaluate_outside r1 t C1 Hs ltac:(lra)) as (_ & -> & _).
      destruct (evaluate_outside r2 t C2 Hs2) as (_ & -> & _); [rewrite <- alike_min, <- alike_max; lra|exact I].
Qed.

Lemma no_acceleration (c : e3_curve R) t : get_coefficients_at c t = None -> e3_evaluate_derivative c t 2 = Ok None.
Proof. intros H. unfold e3_evaluate_derivative. cbn [N.eqb Pos.eqb]. unfold e3_evaluate_acceleration. now rewrite H. Qed.

Lemma alike_acceleration t : ragrees (8 * (E / (D * D))) (e3_evaluate_derivative r1 t 2) (e3_evaluate_derivative r2 t 2).
Proof.
  destruct (size_cases r1) as [E1|[(t0 & k & E1)|Hs]].
  - assert (E2 : contents r2 = []) by (pose proof (al_times _ _ _ HA) as X; rewrite E1 in X; destruct (contents r2); auto; discriminate).
    rewrite (no_acceleration r1), (no_acceleration r2); auto using empty_at. exact I.
  - pose proof (al_times _ _ _ HA) as X. rewrite E1 in X.
    destruct (contents r2) as [|[t' k'] [|? ?]] eqn:E2; try discriminate. injection X as <-.
    rewrite (no_acceleration r1), (no_acceleration r2); eauto using single_at. exact I.
  - assert (Hs2 : (2 <= size r2)%nat) by (rewrite <- alike_size; exact Hs).
    destruct (Rle_dec (min_time r1) t) as [T1|T1]; [destruct (Rle_dec t (max_time r1)) as [T2|T2]|].
    + destruct (find_segment r1 t C1 Hs (conj T1 T2)) as (u & ta & ka & tb & kb & v & Ec & H1 & H2).
      assert (H3 : ta <= t <= tb) by (destruct H2 as [?|[? _]]; lra).
      destruct (alike_segment _ _ _ _ _ _ Ec) as (u' & ka' & kb' & v' & Ec' & Pa & Pb & Hv & HL1 & HV).
      rewrite (acceleration_segment _ _ _ _ _ _ _ t C1 Ec), (acceleration_segment _ _ _ _ _ _ _ t C2 Ec').
      2, 3: destruct H2 as [?|[? ?]]; auto.
      cbn [ragrees]. intros a. rewrite !coord_acceleration. rewrite Pa, Pb. destruct (HV a) as [Va Vb].
      unfold hacc. pose proof (fraction ta tb t H3 ltac:(lra)) as Hx. set (x := (t - ta) / (tb - ta)) in *.
      assert (I1 : 0 < 1 / (tb - ta) <= / D).
      { unfold Rdiv. rewrite Rmult_1_l. split; [apply Rinv_0_lt_compat; lra|apply Rinv_le; lra]. }
      assert (G : forall c, - 4 <= c <= 4 -> - (4 * / D) <= c * (1 / (tb - ta)) <= 4 * / D).
      { intros c Hc. assert (0 < / D) by (now apply Rinv_0_lt_compat). split; nra. }
      pose proof (factor_bound _ _ _ _ (small_diff _ _ Va HL1) (G (6 * x - 4) ltac:(lra))) as W1.
      pose proof (factor_bound _ _ _ _ (small_diff _ _ Vb HL1) (G (6 * x - 2) ltac:(lra))) as W2.
      match goal with |- Rabs ?e <= _ => match type of W1 with Rabs ?e1 <= _ => match type of W2 with Rabs ?e2 <= _ =>
        replace e with (e1 + e2) by ring end end end.
      eapply Rle_trans; [apply Rabs_triang|]. replace (8 * (E / (D * D))) with (4 * / D * (E / D) + 4 * / D * (E / D)) by (field; lra). lra.
    + destruct (evaluate_outside r1 t C1 Hs ltac:(lra)) as (_ & _ & ->).
      destruct (evaluate_outside r2 t C2 Hs2) as (_ & _ & ->); [rewrite <- alike_min, <- alike_max; lra|exact I].
    + destruct (evaluate_outside r1 t C1 Hs ltac:(lra)) as (_ & _ & ->).
      destruct (evaluate_outside r2 t C2 Hs2) as (_ & _ & ->); [rewrite <- alike_min, <- alike_max; lra|exact I].
Qed.
End Alike.

(** ** The data of a fit *)

Section Data.
Context (M D : R) (ts : list b64) (ps : list (vec3 b64)) (d0 d1 : vec3 b64).
Notation T i := (B2R (nth i ts tzero)).

(** Positions are at most [M], consecutive times at least [D] and at most 2^200 apart, and the
    derivatives given for the ends do not lead farther than [M] along the first and last segment. *)
Record fair : Prop := {
  fair_bound : bpow radix2 (-200) <= M <= bpow radix2 198;
  fair_length : moderate D;
  fair_times : forall t, In t ts -> is_finite t = true;
  fair_steps : forall i, (S i < length ts)%nat -> D <= T (S i) - T i <= bpow radix2 200;
  fair_points : forall p, In p ps -> finite_vec p /\ at_most M p;
  fair_derivatives : finite_vec d0 /\ finite_vec d1;
  fair_first : (2 <= length ts)%nat -> at_most (M / (T 1 - T 0)) d0;
  fair_last : (2 <= length ts)%nat -> at_most (M / (T (length ts - 1) - T (length ts - 2))) d1
}.
End Data.

Lemma slope_error (ta tb pa pb : b64) M L : is_finite ta = true -> is_finite tb = true -> is_finite pa = true -> is_finite pb = true ->
  L = B2R tb - B2R ta -> bpow radix2 (-200) <= M <= bpow radix2 200 -> bpow radix2 (-200) <= L <= bpow radix2 201 ->
  Rabs (B2R pa) <= M -> Rabs (B2R pb) <= M ->
  near (nmul (nsub pb pa) (ndiv (nofZ 1) (nsub tb ta))) ((B2R pb - B2R pa) * / L) 9 (M * / L).
Proof.
  intros Fa Fb Ga Gb -> HM HL Pa Pb. set (L := B2R tb - B2R ta) in *.
  assert (PM : 0 < M) by (eapply Rlt_le_trans; [apply (bpow_gt_0 radix2 (-200))|apply HM]).
  assert (PL : 0 < L) by (eapply Rlt_le_trans; [apply (bpow_gt_0 radix2 (-200))|apply HL]).
  assert (PI : 0 < / L) by (now apply Rinv_0_lt_compat).
  assert (IL : bpow radix2 (-201) <= / L <= bpow radix2 200).
  { split.
    - change (-201)%Z with (- (201))%Z. rewrite bpow_opp. apply Rinv_le; [exact PL|apply HL].
    - change 200%Z with (- (-200))%Z. rewrite bpow_opp. apply Rinv_le; [apply bpow_gt_0|apply HL]. }
  assert (ML : middling L).
  { split; [apply Rle_trans with (bpow radix2 (-200))|apply Rle_trans with (bpow radix2 201)]; try apply HL; apply bpow_le; lia. }
  assert (MI : middling (/ L)).
  { split; [apply Rle_trans with (bpow radix2 (-201))|apply Rle_trans with (bpow radix2 200)]; try apply IL; apply bpow_le; lia. }
  assert (MM : middling M).
  { split; [apply Rle_trans with (bpow radix2 (-200))|apply Rle_trans with (bpow radix2 200)]; try apply HM; apply bpow_le; lia. }
  assert (MP : middling (M * / L)).
  { split.
    - apply Rle_trans with (bpow radix2 (-200) * bpow radix2 (-201)); [rewrite <- bpow_plus; apply bpow_le; lia|].
      apply Rmult_le_compat; try apply bpow_ge_0; tauto.
    - apply Rle_trans with (bpow radix2 200 * bpow radix2 200); [apply Rmult_le_compat; lra|rewrite <- bpow_plus; apply bpow_le; lia]. }
  assert (B : Rabs (B2R pb - B2R pa) <= 2 * M) by (unfold Rabs in *; repeat destruct Rcase_abs; lra).
  eapply do_mul with (A := 2) (B := 1) (k := 21 / 10) (l := 22 / 10) (s := M) (r := / L); auto.
  - eapply do_sub with (B := 2) (k := 0) (l := 0); try (apply near_val; now apply finite_val); auto. lra.
  - apply near_inverse; try (now apply finite_val); assumption.
  - rewrite Rabs_pos_eq; lra.
  - lra.
Qed.

Section Fit.
Context (M D : R) (ts : list b64) (ps : list (vec3 b64)) (d0 d1 : vec3 b64).
Hypothesis Hl : length ts = length ps.
Hypothesis HF : fair M D ts ps d0 d1.
Notation T i := (B2R (nth i ts tzero)).
Let n := length ts.
Notation rts := (map B2R ts).
Notation rps := (map real_vec ps).

Lemma fit_D : 0 < D.
Proof. apply moderate_pos. apply (fair_length _ _ _ _ _ _ HF). Qed.
Lemma fit_M : 0 < M.
Proof. eapply Rlt_le_trans; [apply (bpow_gt_0 radix2 (-200))|apply (fair_bound _ _ _ _ _ _ HF)]. Qed.

Lemma nth_time i : nth i rts tzero = T i.
Proof. exact (map_nth B2R ts tzero i). Qed.

Lemma nth_point i : nth i rps vzero = real_vec (nth i ps vzero).
Proof. rewrite <- (map_nth real_vec). reflexivity. Qed.

Lemma point_good i : (i < n)%nat -> finite_vec (nth i ps vzero) /\ at_most M (nth i ps vzero).
Proof. intros L. apply (fair_points _ _ _ _ _ _ HF). apply nth_In. unfold n in L. lia. Qed.
Lemma time_good i : (i < n)%nat -> is_finite (nth i ts tzero) = true.
Proof. intros L. apply (fair_times _ _ _ _ _ _ HF). now apply nth_In. Qed.

(** [v] is finite, not longer than [3M] over [d], and almost [r]. *)
Definition settled (d : R) (v : vec3 b64) (r : vec3 R) : Prop :=
  finite_vec v /\ at_most (3 * M / d) v /\
  (forall a, Rabs (coord a (real_vec v) - coord a r) * d <= 9 * bpow radix2 (-53) * M).

Lemma given_settled d v : 0 < d -> finite_vec v -> at_most (M / d) v -> settled d v (real_vec v).
Proof.
  intros Hd Fv Hv. pose proof fit_M as PM. assert (X : M / d <= 3 * M / d).
  { unfold Rdiv. apply Rmult_le_compat_r; [left; now apply Rinv_0_lt_compat|lra]. }
  split; [exact Fv|]. split.
  - destruct Hv as (A & B & C). repeat split; lra.
  - intros a. rewrite Rminus_diag_eq, Rabs_R0, Rmult_0_l by reflexivity. apply Rmult_le_pos; [|lra].
    apply Rmult_le_pos; [lra|apply bpow_ge_0].
Qed.

Lemma slope_settled i d : (S (S i) < n)%nat -> 0 < d <= T (S (S i)) - T i ->
  settled d (e3_slope (nth i ts tzero) (nth (S (S i)) ts tzero) (nth i ps vzero) (nth (S (S i)) ps vzero))
    (e3_slope (T i) (T (S (S i))) (real_vec (nth i ps vzero)) (real_vec (nth (S (S i)) ps vzero))).
Proof.
  intros Li Hd. pose proof fit_M as PM. pose proof fit_D as PD. unfold n in Li.
  pose proof (fair_steps _ _ _ _ _ _ HF i ltac:(lia)) as S1. pose proof (fair_steps _ _ _ _ _ _ HF (S i) ltac:(lia)) as S2.
  pose proof (fair_bound _ _ _ _ _ _ HF) as HM. destruct (fair_length _ _ _ _ _ _ HF) as [HD _].
  pose proof (time_good i ltac:(unfold n; lia)) as Fa. pose proof (time_good (S (S i)) ltac:(unfold n; lia)) as Fb.
  destruct (point_good i ltac:(unfold n; lia)) as [(A1 & A2 & A3) (A4 & A5 & A6)].
  destruct (point_good (S (S i)) ltac:(unfold n; lia)) as [(B1 & B2 & B3) (B4 & B5 & B6)].
  set (ta := nth i ts tzero) in *. set (tb := nth (S (S i)) ts tzero) in *.
  set (pa := nth i ps vzero) in *. set (pb := nth (S (S i)) ps vzero) in *.
  set (L := B2R tb - B2R ta) in *. assert (EL : L = B2R tb - B2R ta) by reflexivity.
  assert (HL : bpow radix2 (-200) <= L <= bpow radix2 201).
  { split; [lra|]. change 201%Z with (1 + 200)%Z. rewrite bpow_plus. change (bpow radix2 1) with 2. lra. }
  assert (HM2 : bpow radix2 (-200) <= M <= bpow radix2 200).
  { split; [apply HM|]. eapply Rle_trans; [apply HM|apply bpow_le; lia]. }
  assert (PI : 0 < / L) by (apply Rinv_0_lt_compat; lra). assert (Pd : 0 < / d) by (apply Rinv_0_lt_compat; lra).
  assert (Id : / L <= / d) by (apply Rinv_le; lra). assert (U : bpow radix2 (-53) = / 9007199254740992) by (simpl; lra).
  assert (X : forall x y : b64, is_finite x = true -> is_finite y = true -> Rabs (B2R x) <= M -> Rabs (B2R y) <= M ->
    let v := nmul (nsub y x) (ndiv (nofZ 1) (nsub tb ta)) in
    is_finite v = true /\ Rabs (B2R v) <= 3 * M / d /\
    Rabs (B2R v - (B2R y - B2R x) * (1 / L)) * d <= 9 * bpow radix2 (-53) * M).
  { intros x y Fx Fy Bx By v. destruct (slope_error ta tb x y M L Fa Fb Fx Fy eq_refl HM2 HL Bx By) as [Fv Ev].
    fold v in Fv, Ev. split; [exact Fv|]. replace (1 / L) with (/ L) by (field; lra).
    assert (B : Rabs ((B2R y - B2R x) * / L) <= 2 * M * / L).
    { rewrite Rabs_mult, (Rabs_pos_eq (/ L)) by lra. apply Rmult_le_compat_r; [lra|].
      unfold Rabs in *; repeat destruct Rcase_abs; lra. }
    assert (N1 : M * / L <= M * / d) by (apply Rmult_le_compat_l; lra).
    assert (N0 : 0 < M * / L) by (now apply Rmult_lt_0_compat).
    split.
    - replace (B2R v) with ((B2R v - (B2R y - B2R x) * / L) + (B2R y - B2R x) * / L) by ring.
      eapply Rle_trans; [apply Rabs_triang|]. unfold Rdiv. rewrite U in Ev. lra.
    - apply Rle_trans with (9 * bpow radix2 (-53) * (M * / L) * d); [apply Rmult_le_compat_r; lra|].
      replace (9 * bpow radix2 (-53) * (M * / L) * d) with (9 * bpow radix2 (-53) * M * (/ L * d)) by ring.
      rewrite <- (Rmult_1_r (9 * bpow radix2 (-53) * M)) at 2. apply Rmult_le_compat_l.
      + rewrite U. lra.
      + apply Rmult_le_reg_l with L; [lra|]. rewrite <- Rmult_assoc, Rinv_r by lra. lra. }
  destruct (X _ _ A1 B1 A4 B4) as (X1 & X2 & X3), (X _ _ A2 B2 A5 B5) as (Y1 & Y2 & Y3), (X _ _ A3 B3 A6 B6) as (Z1 & Z2 & Z3).
  split; [now repeat split|]. split; [now repeat split|].
  intros [| |]; [exact X3|exact Y3|exact Z3].
Qed.

(** The velocity at a knot, seen from a segment beside it. *)
Lemma velocity_settled i j : (S j < n)%nat -> i = j \/ i = S j ->
  settled (T (S j) - T j) (fit_velocity ts ps d0 d1 i) (fit_velocity rts rps (real_vec d0) (real_vec d1) i).
Proof.
  intros Lj Hi. pose proof fit_D as PD. unfold n in Lj.
  pose proof (fair_steps _ _ _ _ _ _ HF j ltac:(lia)) as Sj.
  destruct (fair_derivatives _ _ _ _ _ _ HF) as [G0 G1].
  destruct i as [|i].
  - assert (j = 0)%nat as -> by lia. cbn [fit_velocity]. apply given_settled; [lra|exact G0|].
    apply (fair_first _ _ _ _ _ _ HF). lia.
  - pose proof (map_length B2R ts) as Lr. unfold fit_velocity. destruct (Nat.eq_dec (S (S i)) (length ts)) as [El|El].
    + assert (El' : S (S i) = length rts) by (rewrite Lr; exact El).
      rewrite (proj2 (Nat.eqb_eq _ _) El), (proj2 (Nat.eqb_eq _ _) El'). assert (j = i) as -> by lia. apply given_settled; [lra|exact G1|].
      pose proof (fair_last _ _ _ _ _ _ HF ltac:(lia)) as X.
      replace (length ts - 1)%nat with (S i) in X by lia. replace (length ts - 2)%nat with i in X by lia. exact X.
    + assert (El' : S (S i) <> length rts) by (rewrite Lr; exact El).
      rewrite (proj2 (Nat.eqb_neq _ _) El), (proj2 (Nat.eqb_neq _ _) El'), !nth_time, !nth_point. apply slope_settled; [unfold n; lia|].
      pose proof (fair_steps _ _ _ _ _ _ HF i ltac:(lia)). pose proof (fair_steps _ _ _ _ _ _ HF (S i) ltac:(lia)).
      destruct Hi as [<-|Hi]; [lra|]. injection Hi as <-. lra.
Qed.

Lemma velocity_single : n = 1%nat -> fit_velocity rts rps (real_vec d0) (real_vec d1) 0 = real_vec (fit_velocity ts ps d0 d1 0).
Proof. reflexivity. Qed.

Lemma velocity_finite i : (i < n)%nat -> finite_vec (fit_velocity ts ps d0 d1 i).
Proof.
  intros Li. unfold n in Li. destruct (fair_derivatives _ _ _ _ _ _ HF) as [G0 G1]. destruct i as [|i].
  - exact G0.
  - apply (velocity_settled (S i) i); [unfold n; lia|auto].
Qed.

Variable c : e3_curve b64.
Hypothesis Ec : contents c = combine ts (map (fit_knot ts ps d0 d1) (seq 0 (length ts))).

Lemma nth_contents i : (i < n)%nat -> nth_error (contents c) i = Some (nth i ts tzero, fit_knot ts ps d0 d1 i).
Proof.
  intros Li. rewrite Ec. apply nth_error_combine; [now apply nth_error_nth'|now apply fit_knots_nth].
Qed.

Lemma contents_length : length (contents c) = n.
Proof. rewrite Ec, combine_length, fit_knots_length. apply Nat.min_id. Qed.

Lemma contents_segment u x y v : contents c = u ++ x :: y :: v ->
  (S (length u) < n)%nat /\ x = (nth (length u) ts tzero, fit_knot ts ps d0 d1 (length u)) /\
  y = (nth (S (length u)) ts tzero, fit_knot ts ps d0 d1 (S (length u))).
Proof.
  intros E. assert (L : (S (length u) < n)%nat).
  { rewrite <- contents_length, E, app_length. simpl. lia. }
  split; [exact L|]. pose proof (nth_contents (length u) ltac:(lia)) as X. pose proof (nth_contents (S (length u)) L) as Y.
  rewrite E, nth_error_app2, Nat.sub_diag in X by lia. rewrite E, nth_error_app2 in Y by lia.
  replace (S (length u) - length u)%nat with 1%nat in Y by lia. cbn [nth_error] in X, Y. split; congruence.
Qed.

Lemma contents_element x : In x (contents c) -> exists i, (i < n)%nat /\ x = (nth i ts tzero, fit_knot ts ps d0 d1 i).
Proof.
  intros Hi. apply In_nth_error in Hi as [i Hi]. assert (L : (i < n)%nat).
  { rewrite <- contents_length. apply nth_error_Some. congruence. }
  exists i. split; [exact L|]. rewrite nth_contents in Hi by exact L. congruence.
Qed.

Lemma fit_finite : finite_curve c.
Proof.
  intros t k Hi. apply contents_element in Hi as (i & Li & [= -> ->]). split; [now apply time_good|].
  split; [now apply point_good|now apply velocity_finite].
Qed.

Lemma fit_tame : tame (3 * M) D c.
Proof.
  pose proof fit_M as PM. pose proof (fair_bound _ _ _ _ _ _ HF) as HM. split.
  - split; [lra|]. replace (bpow radix2 200) with (4 * bpow radix2 198) by (change 4 with (bpow radix2 2); rewrite <- bpow_plus; reflexivity). lra.
  - apply (fair_length _ _ _ _ _ _ HF).
  - intros t k Hi. apply contents_element in Hi as (i & Li & [= -> ->]). destruct (point_good i Li) as [_ (A & B & C)].
    repeat split; cbn [fit_knot k_pos]; lra.
  - intros l ta ka tb kb r E. apply contents_segment in E as (L & [= -> ->] & [= -> ->]).
    split; [apply (fair_steps _ _ _ _ _ _ HF _ L)|]. cbn [fit_knot k_vel].
    split; [apply (velocity_settled (length l) (length l) L)|apply (velocity_settled (S (length l)) (length l) L)]; auto.
Qed.

Variable r : e3_curve R.
Hypothesis Er : contents r = combine rts (map (fit_knot rts rps (real_vec d0) (real_vec d1)) (seq 0 (length rts))).

Lemma real_contents : contents (real_curve c) = map (fun x => (B2R (fst x), real_knot (snd x))) (contents c).
Proof. unfold contents. cbn [nodes real_curve]. now rewrite !map_map. Qed.

Lemma combine_fst {A B} : forall (l : list A) (l' : list B), length l = length l' -> map fst (combine l l') = l.
Proof. induction l as [|x l IH]; intros [|y l'] E; try discriminate; auto. injection E as E. simpl. now rewrite IH. Qed.
Lemma combine_snd {A B} : forall (l : list A) (l' : list B), length l = length l' -> map snd (combine l l') = l'.
Proof. induction l as [|x l IH]; intros [|y l'] E; try discriminate; auto. injection E as E. simpl. now rewrite IH. Qed.

Lemma real_nth i : (i < n)%nat -> nth_error (contents r) i =
  Some (T i, Knot (real_vec (nth i ps vzero)) (fit_velocity rts rps (real_vec d0) (real_vec d1) i)).
Proof.
  intros Li. rewrite Er. apply nth_error_combine.
  - rewrite (nth_error_nth' _ tzero) by (rewrite map_length; exact Li). now rewrite nth_time.
  - rewrite fit_knots_nth by (rewrite map_length; exact Li). unfold fit_knot. now rewrite nth_point.
Qed.

Lemma real_nth' i : (i < n)%nat -> nth_error (contents (real_curve c)) i =
  Some (T i, Knot (real_vec (nth i ps vzero)) (real_vec (fit_velocity ts ps d0 d1 i))).
Proof. intros Li. rewrite real_contents, nth_error_map, nth_contents by exact Li. reflexivity. Qed.

Lemma real_length : length (contents r) = n.
Proof. rewrite Er, combine_length, fit_knots_length, map_length. apply Nat.min_id. Qed.
Lemma real_length' : length (contents (real_curve c)) = n.
Proof. rewrite real_contents, map_length. apply contents_length. Qed.

Lemma map_nth_eq {A B} (f : A -> B) l l' : length l = length l' ->
  (forall i, (i < length l)%nat -> option_map f (nth_error l i) = option_map f (nth_error l' i)) -> map f l = map f l'.
Proof.
  revert l'. induction l as [|x l IH]; intros [|y l'] L H; try discriminate; auto. simpl. f_equal.
  - specialize (H 0%nat ltac:(simpl; lia)). simpl in H. congruence.
  - apply IH; [now injection L|]. intros i Hi. apply (H (S i)). simpl. lia.
Qed.

Lemma fit_alike : alike (9 * bpow radix2 (-53) * M) (real_curve c) r.
Proof.
  split.
  - apply map_nth_eq; [now rewrite real_length, real_length'|]. rewrite real_length'. intros i Li. now rewrite real_nth, real_nth'.
  - apply map_nth_eq; [now rewrite real_length, real_length'|]. rewrite real_length'. intros i Li. now rewrite real_nth, real_nth'.
  - intros t k k' E1 E2. pose proof real_length as L. rewrite E2 in L. cbn in L.
    pose proof (real_nth 0 ltac:(lia)) as X. pose proof (real_nth' 0 ltac:(lia)) as Y. rewrite E2 in X. rewrite E1 in Y.
    cbn [nth_error] in X, Y. injection X as _ ->. injection Y as _ ->. reflexivity.
  - intros u ta ka tb kb v u' ka' kb' v' E1 E2 Lu a. pose proof real_length' as L. rewrite E1, app_length in L. cbn [length] in L.
    pose proof (real_nth' (length u) ltac:(lia)) as X1. pose proof (real_nth' (S (length u)) ltac:(lia)) as Y1.
    pose proof (real_nth (length u) ltac:(lia)) as X2. pose proof (real_nth (S (length u)) ltac:(lia)) as Y2.
    rewrite E1, nth_error_app2 in X1, Y1 by lia. rewrite E2, nth_error_app2 in X2, Y2 by lia. rewrite <- Lu in X2, Y2.
    rewrite Nat.sub_diag in X1, X2. replace (S (length u) - length u)%nat with 1%nat in Y1, Y2 by lia.
    cbn [nth_error] in X1, Y1, X2, Y2. injection X1 as -> ->. injection Y1 as -> ->. injection X2 as ->. injection Y2 as ->.
    cbn [k_vel]. split; [apply (velocity_settled (length u) (length u))|apply (velocity_settled (S (length u)) (length u))]; auto; lia.
Qed.

Lemma fit_long u ta ka tb kb v : contents (real_curve c) = u ++ (ta, ka) :: (tb, kb) :: v -> D <= tb - ta.
Proof.
  intros E1. pose proof real_length' as L. rewrite E1, app_length in L. cbn [length] in L.
  pose proof (real_nth' (length u) ltac:(lia)) as X1. pose proof (real_nth' (S (length u)) ltac:(lia)) as Y1.
  rewrite E1, nth_error_app2 in X1, Y1 by lia.
  rewrite Nat.sub_diag in X1. replace (S (length u) - length u)%nat with 1%nat in Y1 by lia.
  cbn [nth_error] in X1, Y1. injection X1 as -> ->. injection Y1 as -> ->. apply (fair_steps _ _ _ _ _ _ HF). fold n. lia.
Qed.
End Fit.

Lemma agrees_weaken e e' o o' : agrees e o o' -> e <= e' -> agrees e' o o'.
Proof. destruct o as [[v|]| | |], o' as [[r|]| | |]; simpl; auto. intros H L. now apply (close_weaken e). Qed.

Lemma fair_climbing M D ts ps d0 d1 : fair M D ts ps d0 d1 -> climbing ts /\ increasing_times (map B2R ts).
Proof.
  intros HF. pose proof (fair_times _ _ _ _ _ _ HF) as F. pose proof (moderate_pos _ (fair_length _ _ _ _ _ _ HF)) as PD.
  assert (S1 : forall i, (S i < length ts)%nat -> B2R (nth i ts tzero) < B2R (nth (S i) ts tzero)).
  { intros i Li. pose proof (fair_steps _ _ _ _ _ _ HF i Li). lra. }
  clear HF PD. split.
  - induction ts as [|t [|t' ts'] IH].
    + exact I.
    + split; [apply F; now left|now split].
    + pose proof (S1 0%nat ltac:(simpl; lia)) as X. cbn [nth] in X.
      assert (F1 : is_finite t = true) by (apply F; now left). assert (F2 : is_finite t' = true) by (apply F; simpl; auto).
      split; [exact F1|]. split; [|apply IH; [intros; apply F; now right|intros i Li; apply (S1 (S i)); simpl in *; lia]].
      pose proof (same_lt t t' F1 F2) as Q. change (b64_ltb t t' = true). change (tlt t t') with (b64_ltb t t') in Q.
      rewrite <- Q. now apply Rltb_lt.
  - intros i Li. rewrite map_length in Li. unfold at_knot.
    pose proof (map_nth B2R ts tzero) as N. cbn [B2R] in N. change (B2R (tzero : b64)) with 0 in N. rewrite !N. now apply S1.
Qed.

(** ** C92 *)

(** Fitting a curve in double precision and then evaluating it gives, at every time, what
    exact arithmetic gives for the same data, up to 2^-43 of their size; the velocity and
    the acceleration up to 2^-43 and 2^-42 of the size over the shortest step or its square. *)
Theorem C92_fit_with_derivatives : forall debug g (c : e3_curve b64) (r : e3_curve R) (M D : R)
    (ts : list b64) (ps : list (vec3 b64)) (d0 d1 : vec3 b64) out,
  consistent c -> e3_size c = 0%nat -> consistent r -> e3_size r = 0%nat ->
  length ts = length ps -> (g + N.of_nat (length ts) < key_mod)%N -> fair M D ts ps d0 d1 ->
  exists g' c' r' ks ks',
    e3_fit_with_derivatives debug g c ts ps d0 d1 out = Ok (g', c', ks) /\
    e3_fit_with_derivatives debug g r (map B2R ts) (map real_vec ps) (real_vec d0) (real_vec d1) out = Ok (g', r', ks') /\
    forall t : b64, is_finite t = true ->
      agrees (bpow radix2 (-43) * M) (e3_evaluate c' t) (e3_evaluate r' (B2R t)) /\
      agrees (bpow radix2 (-43) * (M / D)) (e3_evaluate_derivative c' t 1) (e3_evaluate_derivative r' (B2R t) 1) /\
      agrees (bpow radix2 (-42) * (M / (D * D))) (e3_evaluate_derivative c' t 2) (e3_evaluate_derivative r' (B2R t) 2).
Proof.
  intros debug g c r M D ts ps d0 d1 out Hc Hz Hr Hzr Hl Hg HF. destruct (fair_climbing _ _ _ _ _ _ HF) as [Hcl Hin].
  destruct (e3_fit_b64 debug g c ts ps d0 d1 out Hc Hz Hl Hcl Hg) as (c' & ks & E & Hc' & Ec).
  destruct (e3_fit_spec debug g r (map B2R ts) (map real_vec ps) (real_vec d0) (real_vec d1) out Hr Hzr) as (r' & ks' & E' & _ & [Hr' _] & Er);
    try (rewrite !map_length); auto.
  rewrite map_length in E'.
  eexists _, c', r', _, _. split; [exact E|]. split; [exact E'|]. intros t Ft.
  pose proof (fit_finite M D ts ps d0 d1 Hl HF c' Ec) as Hf. pose proof (fit_tame M D ts ps d0 d1 Hl HF c' Ec) as Ht.
  pose proof (fit_alike M D ts ps d0 d1 Hl HF c' Ec r' Er) as Ha. pose proof (fit_M M D ts ps d0 d1 HF) as PM.
  pose proof (fit_D M D ts ps d0 d1 HF) as PD.
  assert (Hrc : consistent (real_curve c')).
  { apply real_consistent; [|exact Hc']. intros n Hn. apply (Hf _ (n_coef n)). unfold contents.
    now apply (in_map (fun n => (n_time n, n_coef n))) in Hn. }
  assert (HE : 0 <= 9 * bpow radix2 (-53) * M) by (apply Rmult_le_pos; [|lra]; apply Rmult_le_pos; [lra|apply bpow_ge_0]).
  assert (B53 : bpow radix2 (-53) = / 9007199254740992) by (simpl; lra).
  assert (B45 : bpow radix2 (-45) = 256 * / 9007199254740992) by (simpl; lra).
  assert (B44 : bpow radix2 (-44) = 512 * / 9007199254740992) by (simpl; lra).
  assert (B43 : bpow radix2 (-43) = 1024 * / 9007199254740992) by (simpl; lra).
  assert (B42 : bpow radix2 (-42) = 2048 * / 9007199254740992) by (simpl; lra).
  pose proof (fit_long M D ts ps d0 d1 Hl HF c' Ec) as HL.
  pose proof (alike_value _ D _ _ HE PD Hrc Hr' Ha HL (B2R t)) as A0.
  pose proof (alike_velocity _ D _ _ HE PD Hrc Hr' Ha HL (B2R t)) as A1.
  pose proof (alike_acceleration _ D _ _ PD Hrc Hr' Ha HL (B2R t)) as A2.
  split; [|split].
  - eapply agrees_weaken; [eapply agrees_trans; [exact (C91_position c' _ _ t Hc' Hf Ht Ft)|exact A0]|]. rewrite B53, B45, B43. lra.
  - eapply agrees_weaken; [eapply agrees_trans; [exact (C91_velocity c' _ _ t Hc' Hf Ht Ft)|exact A1]|].
    assert (0 < M / D) by (apply Rmult_lt_0_compat; [lra|now apply Rinv_0_lt_compat]).
    replace (9 * bpow radix2 (-53) * M / D) with (9 * bpow radix2 (-53) * (M / D)) by (field; lra).
    replace (3 * M / D) with (3 * (M / D)) by (field; lra). rewrite B53, B45, B43. lra.
  - eapply agrees_weaken; [eapply agrees_trans; [exact (C91_acceleration c' _ _ t Hc' Hf Ht Ft)|exact A2]|].
    assert (0 < D * D) by (now apply Rmult_lt_0_compat).
    assert (0 < M / (D * D)) by (apply Rmult_lt_0_compat; [lra|now apply Rinv_0_lt_compat]).
    replace (9 * bpow radix2 (-53) * M / (D * D)) with (9 * bpow radix2 (-53) * (M / (D * D))) by (field; lra).
    replace (3 * M / (D * D)) with (3 * (M / (D * D))) by (field; lra). rewrite B53, B44, B42. lra.
Qed.

Lemma zero_vec : real_vec vzero = vzero /\ finite_vec vzero /\ forall m, 0 <= m -> at_most m vzero.
Proof.
  split; [reflexivity|]. split; [now repeat split|]. intros m Hm. unfold at_most, each. cbn [vx vy vz vzero].
  change (B2R (nofZ 0)) with 0. rewrite Rabs_R0. auto.
Qed.

(** The same for fitCurve. *)
Corollary C92_fit : forall debug g (c : e3_curve b64) (r : e3_curve R) (M D : R)
    (ts : list b64) (ps : list (vec3 b64)) out,
  consistent c -> e3_size c = 0%nat -> consistent r -> e3_size r = 0%nat ->
  length ts = length ps -> (g + N.of_nat (length ts) < key_mod)%N ->
  bpow radix2 (-200) <= M <= bpow radix2 198 -> moderate D ->
  (forall t, In t ts -> is_finite t = true) -> (forall p, In p ps -> finite_vec p /\ at_most M p) ->
  (forall i, (S i < length ts)%nat -> D <= B2R (nth (S i) ts tzero) - B2R (nth i ts tzero) <= bpow radix2 200) ->
  exists g' c' r' ks ks',
    e3_fit debug g c ts ps out = Ok (g', c', ks) /\
    e3_fit debug g r (map B2R ts) (map real_vec ps) out = Ok (g', r', ks') /\
    forall t : b64, is_finite t = true ->
      agrees (bpow radix2 (-43) * M) (e3_evaluate c' t) (e3_evaluate r' (B2R t)) /\
      agrees (bpow radix2 (-43) * (M / D)) (e3_evaluate_derivative c' t 1) (e3_evaluate_derivative r' (B2R t) 1) /\
      agrees (bpow radix2 (-42) * (M / (D * D))) (e3_evaluate_derivative c' t 2) (e3_evaluate_derivative r' (B2R t) 2).
Proof.
  intros debug g c r M D ts ps out Hc Hz Hr Hzr Hl Hg HM HD Ht Hp Hs.
  destruct zero_vec as (Z1 & Z2 & Z3).
  assert (PM : 0 < M) by (eapply Rlt_le_trans; [apply (bpow_gt_0 radix2 (-200))|apply HM]).
  assert (PD : 0 < D) by (now apply moderate_pos).
  unfold e3_fit. rewrite <- Z1. apply (C92_fit_with_derivatives debug g c r M D ts ps vzero vzero out); auto.
  split; auto.
  - intros L. apply Z3. pose proof (Hs 0%nat ltac:(lia)). apply Rmult_le_pos; [lra|]. left. apply Rinv_0_lt_compat. lra.
  - intros L. apply Z3. pose proof (Hs (length ts - 2)%nat ltac:(lia)) as X.
    replace (S (length ts - 2)) with (length ts - 1)%nat in X by lia.
    apply Rmult_le_pos; [lra|]. left. apply Rinv_0_lt_compat. lra.
Qed.

(** Three points at the times 0, 1 and 3 with derivatives for the ends. *)
Example C92_example : let ts := [dbl 0; dbl 1; dbl 3] in let ps := [dvec 1 2 3; dvec 4 0 (-5); dvec 7 8 9] in
  fair 10 1 ts ps (dvec 1 (-2) 3) (dvec 0 5 (-1)) /\ length ts = length ps /\
  consistent (@e3_new b64) /\ e3_size (@e3_new b64) = 0%nat /\ consistent (@e3_new R) /\ e3_size (@e3_new R) = 0%nat.
Proof.
  cbv zeta. split; [|split; [reflexivity|split; [split; constructor|split; [reflexivity|split; [split; constructor|reflexivity]]]]].
  assert (V : forall z, (Z.abs z <= 2 ^ 53)%Z -> B2R (dbl z) = IZR z) by (intros; now apply dbl_value).
  split.
  - split; [apply Rle_trans with (bpow radix2 0); [apply bpow_le; lia|simpl; lra]|].
    apply Rle_trans with (bpow radix2 10); [simpl; lra|apply bpow_le; lia].
  - apply moderate_small. lra.
  - intros t [<-|[<-|[<-|[]]]]; reflexivity.
  - intros i Li. simpl in Li. assert (K : 2 <= bpow radix2 200) by (apply Rle_trans with (bpow radix2 1); [simpl; lra|apply bpow_le; lia]).
    destruct i as [|[|i]]; [| |lia]; cbn [nth]; rewrite !V by (vm_compute; discriminate); lra.
  - intros p [<-|[<-|[<-|[]]]]; (split; [now repeat split|]); apply dvec_at_most; try (vm_compute; discriminate);
      unfold Rabs; destruct Rcase_abs; lra.
  - split; now repeat split.
  - intros _. cbn [nth]. rewrite !V by (vm_compute; discriminate).
    apply dvec_at_most; try (vm_compute; discriminate); unfold Rabs; destruct Rcase_abs; lra.
  - intros _. cbn [nth length Nat.sub]. rewrite !V by (vm_compute; discriminate).
    apply dvec_at_most; try (vm_compute; discriminate); unfold Rabs; destruct Rcase_abs; lra.
Qed.

Print Assumptions C92_fit_with_derivatives.
Print Assumptions C92_fit.
