(** * Lemmas on the cubic Hermite curve in SE3 *)

From Coquelicot Require Import Coquelicot.
From Coq Require Import List Reals Lra Lia Bool Arith NArith ZArith Permutation Sorted.
From Verif Require Import Base TimeOrder TimeInst KeyGen Manager ManagerSpec ManagerProofs ManagerProofs2
  ManagerProofs3 Num Sampling SamplingSpec SamplingProofs SplineSpec SetDataTraj HermiteE3 HermiteSpec HermiteE3Proofs
  Quat QuatSpec QuatProofs HermiteSE3.
Import ListNotations.
Local Open Scope R_scope.

(** ** Managers with mapped coefficients *)

Definition node_map {T A B} (f : A -> B) (n : node T A) : node T B :=
  Node (n_id n) (n_time n) (n_key n) (f (n_coef n)).
Definition mgr_map {T A B} (f : A -> B) (m : mgr T A) : mgr T B :=
  Mgr (map (node_map f) (nodes m)) (index m) (fresh m).

Section MapMgr.
Context {T A B : Type} `{TimeOps T} (f : A -> B).

Lemma map_last_node (l : list (node T A)) : last_node (map (node_map f) l) = option_map (node_map f) (last_node l).
Proof. unfold last_node. rewrite <- map_rev. now destruct (rev l). Qed.

Lemma map_min_time (m : mgr T A) : min_time (mgr_map f m) = min_time m.
Proof. unfold min_time. cbn. now destruct (nodes m). Qed.

Lemma map_max_time (m : mgr T A) : max_time (mgr_map f m) = max_time m.
Proof. unfold max_time. cbn [nodes mgr_map]. rewrite map_last_node. now destruct (last_node (nodes m)). Qed.

Lemma map_get_times (m : mgr T A) : get_times (mgr_map f m) = get_times m.
Proof. unfold get_times. cbn. rewrite map_map. reflexivity. Qed.

Lemma map_size (m : mgr T A) : size (mgr_map f m) = size m.
Proof. unfold size. cbn. apply map_length. Qed.

Lemma map_contents (m : mgr T A) : contents (mgr_map f m) = map (fun tc => (fst tc, f (snd tc))) (contents m).
Proof. unfold contents. cbn. now rewrite !map_map. Qed.

Definition pair_map (p : node T A * node T A) : node T B * node T B := (node_map f (fst p), node_map f (snd p)).

Lemma map_bracket_from (l : list (node T A)) : forall p t,
  bracket_from (node_map f p) (map (node_map f) l) t = option_map pair_map (bracket_from p l t).
Proof.
  induction l as [|n l IH]; intros p t; [reflexivity|].
  cbn [map bracket_from node_map n_time]. destruct (tlt t (n_time n)); [reflexivity|]. apply IH.
Qed.

Lemma map_get_at (m : mgr T A) t :
  get_coefficients_at (mgr_map f m) t = option_map pair_map (get_coefficients_at m t).
Proof.
  unfold get_coefficients_at. rewrite map_max_time. unfold empty. cbn [nodes mgr_map].
  destruct (nodes m) as [|n l] eqn:En; [reflexivity|]. cbn [map].
  destruct (teq t (max_time m)).
  - change (node_map f n :: map (node_map f) l) with (map (node_map f) (n :: l)).
    unfold last_two. rewrite <- map_rev. now destruct (rev (n :: l)) as [|x [|y r]].
  - unfold bracket_upper. cbn [node_map n_time]. destruct (tlt t (n_time n)); [reflexivity|].
    apply map_bracket_from.
Qed.

Lemma map_consistent (m : mgr T A) : consistent m -> consistent (mgr_map f m).
Proof.
  intros [A1 A2 A3 A4 A5]. constructor.
  - now rewrite map_get_times.
  - cbn. rewrite map_map. exact A2.
  - cbn. apply Forall_map. exact A3.
  - unfold get_keys in *. cbn. rewrite map_map. exact A4.
  - cbn. rewrite map_map. exact A5.
Qed.
End MapMgr.

(** ** The positions of an SE3 curve are those of the E3 curve with the same knots *)

Definition translation {S} (c : se3_curve S) : e3_curve S := mgr_map e3_knot (h_mgr c).

Section Translation.
Context {S : Type} `{Num S} `{TimeOps S} (K : kindr S).

Lemma translation_evaluate (c : se3_curve S) t :
  e3_evaluate (translation c) t = on_value p_pos (se3_evaluate K c t).
Proof.
  unfold e3_evaluate, se3_evaluate, translation, first_coefficient, se3_first. rewrite map_max_time, map_min_time.
  destruct (_ && _).
  - cbn [nodes mgr_map]. now destruct (nodes (h_mgr c)).
  - rewrite map_get_at. destruct (get_coefficients_at (h_mgr c) t) as [[a b]|]; reflexivity.
Qed.

Lemma translation_velocity (c : se3_curve S) t :
  e3_evaluate_derivative (translation c) t 1 = on_value t_lin (se3_evaluate_derivative K c t 1).
Proof.
  unfold e3_evaluate_derivative, se3_evaluate_derivative, translation, first_coefficient, se3_first.
  cbn [N.eqb Pos.eqb]. rewrite map_max_time, map_min_time. destruct (_ && _) eqn:Es.
  - cbn [nodes mgr_map]. now destruct (nodes (h_mgr c)).
  - rewrite map_get_at. destruct (get_coefficients_at (h_mgr c) t) as [[a b]|] eqn:Eg; [|reflexivity].
    unfold se3_evaluate. rewrite Es, Eg. reflexivity.
Qed.

Lemma translation_acceleration (c : se3_curve S) t :
  e3_evaluate_derivative (translation c) t 2 = se3_evaluate_acceleration c t.
Proof.
  unfold e3_evaluate_derivative, e3_evaluate_acceleration, se3_evaluate_acceleration, translation.
  cbn [N.eqb Pos.eqb]. rewrite map_get_at. destruct (get_coefficients_at (h_mgr c) t) as [[a b]|]; reflexivity.
Qed.
End Translation.

(** ** The orientation on one segment *)

Definition qA (k : pose R * twist R) : quat R := p_rot (fst k).
Definition wA (k : pose R * twist R) : vec3 R := t_ang (snd k).

Lemma quat_derivative_eq (f g : R -> quat R) t d : (forall s, f s = g s) -> quat_derivative f t d -> quat_derivative g t d.
Proof.
  intros E (A & B & C & D).
  repeat split; (eapply is_derive_Reals; eapply is_derive_ext; [intros s; rewrite <- E; reflexivity|]);
    apply is_derive_Reals; assumption.
Qed.

Lemma pure_imag (q : quat R) : qw q = 0 -> qpure (qimag q) = q.
Proof. destruct q as [w x y z]. cbn. intros ->. reflexivity. Qed.

Lemma qscale_add (x y : quat R) s : qscale (qadd x y) s = qadd (qscale x s) (qscale y s).
Proof. qring. Qed.

Lemma quat_zero_r (x : quat R) : qmul x (Quat 0 0 0 0) = Quat 0 0 0 0.
Proof. qring. Qed.
Lemma quat_zero_l (x : quat R) : qmul (Quat 0 0 0 0) x = Quat 0 0 0 0.
Proof. qring. Qed.
Lemma quat_add_zero_l (x : quat R) : qadd (Quat 0 0 0 0) x = x.
Proof. qring. Qed.
Lemma quat_add_zero_r (x : quat R) : qadd x (Quat 0 0 0 0) = x.
Proof. qring. Qed.

Lemma pure_rotate (q : quat R) v : qpure (qrotate q v) = qmul (qmul q (qpure v)) (qconj q).
Proof. qring. Qed.

Lemma conj_pure (x : quat R) v : qw (qmul (qmul (qconj x) (qpure v)) x) = 0.
Proof. destruct x, v. cbn. numR. ring. Qed.

Section Segment.
Variable K : kindr R.
Hypothesis HK : exact_kindr K.

Section One.
Variables (ta tb : R) (a b : pose R * twist R).
Hypothesis Hlt : ta < tb.

Let third := (tb - ta) / 3.
Let w1 := rotation_matrix (qconj (qA a)) (vscale third (wA a)).
Let w3 := rotation_matrix (qconj (qA b)) (vscale third (wA b)).
Let w2 := k_log K (qmul (qmul (qmul (qexp (vneg w1)) (qconj (qA a))) (qA b)) (qexp (vneg w3))).
Let al (t : R) := (t - ta) / (tb - ta).
Let b1 (t : R) := al t * al t * al t - 3 * (al t * al t) + 3 * al t.
Let b2 (t : R) := - 2 * (al t * al t * al t) + 3 * (al t * al t).
Let b3 (t : R) := al t * al t * al t.
Let db1 (t : R) := 3 * ((1 - al t) * (1 - al t)) / (tb - ta).
Let db2 (t : R) := 6 * al t * (1 - al t) / (tb - ta).
Let db3 (t : R) := 3 * (al t * al t) / (tb - ta).

Local Notation rot := (se3_segment_rotation K ta tb a b).
Local Notation qdiff := (se3_segment_qdiff K ta tb a b).

Lemma rot_form t : rot t = qmul (qmul (qmul (qA a) (qexp (vscale (b1 t) w1))) (qexp (vscale (b2 t) w2))) (qexp (vscale (b3 t) w3)).
Proof.
  unfold se3_segment_rotation, se3_w2, se3_w1. numR. rewrite !(proj1 HK), !qunrotate_matrix. reflexivity.
Qed.

Lemma qdiff_form t : qdiff t =
  qadd (qadd (qmul (qmul (qmul (qmul (qA a) (qexp (vscale (b1 t) w1))) (qpure (vscale (db1 t) w1)))
                         (qexp (vscale (b2 t) w2))) (qexp (vscale (b3 t) w3)))
             (qmul (qmul (qmul (qmul (qA a) (qexp (vscale (b1 t) w1))) (qexp (vscale (b2 t) w2)))
                         (qpure (vscale (db2 t) w2))) (qexp (vscale (b3 t) w3))))
       (qmul (qmul (qmul (qmul (qA a) (qexp (vscale (b1 t) w1))) (qexp (vscale (b2 t) w2)))
                   (qexp (vscale (b3 t) w3))) (qpure (vscale (db3 t) w3))).
Proof.
  unfold se3_segment_qdiff, se3_w2, se3_w1. numR. rewrite !(proj1 HK), !qunrotate_matrix.
  replace (1 / 3 * (tb - ta)) with third by (unfold third; field).
  change (p_rot (fst a)) with (qA a). change (p_rot (fst b)) with (qA b).
  change (t_ang (snd a)) with (wA a). change (t_ang (snd b)) with (wA b).
  fold w1 w3. fold w2. fold (al t).
  replace (1 - (1 - al t) * ((1 - al t) * (1 - al t))) with (b1 t) by (unfold b1; ring).
  replace (3 * (al t * al t) - 2 * (al t * al t * al t)) with (b2 t) by (unfold b2; ring).
  fold (b3 t). generalize (qexp (vscale (b1 t) w1)) as e1. generalize (qexp (vscale (b2 t) w2)) as e2.
  generalize (qexp (vscale (b3 t) w3)) as e3. intros e3 e2 e1.
  assert (P : forall x v, qpure (vscale (x / (tb - ta)) v) = qscale (qpure (vscale x v)) (1 / (tb - ta))).
  { intros x v. destruct v. apply quat_ext; cbn; numR; field; lra. }
  unfold db1, db2, db3. rewrite !P, !qmul_scale_r, !qmul_scale_l.
  now rewrite !qscale_add.
Qed.

Lemma al_start : al ta = 0.
Proof. unfold al. field. lra. Qed.
Lemma al_end : al tb = 1.
Proof. unfold al. field. lra. Qed.
Lemma al_derive t : derivable_pt_lim al t (/ (tb - ta)).
Proof. apply is_derive_Reals. unfold al. auto_derive; [lra|]. field. lra. Qed.

Lemma b1_derive t : derivable_pt_lim b1 t (db1 t).
Proof. apply is_derive_Reals. unfold b1, db1, al. auto_derive; [lra|]. field. lra. Qed.
Lemma b2_derive t : derivable_pt_lim b2 t (db2 t).
Proof. apply is_derive_Reals. unfold b2, db2, al. auto_derive; [lra|]. field. lra. Qed.
Lemma b3_derive t : derivable_pt_lim b3 t (db3 t).
Proof. apply is_derive_Reals. unfold b3, db3, al. auto_derive; [lra|]. field. lra. Qed.

Lemma rot_unit t : unit_quat (qA a) -> unit_quat (rot t).
Proof. intros Ha. rewrite rot_form. repeat apply unit_mul; auto; apply qexp_unit. Qed.

Lemma rot_start : rot ta = qA a.
Proof.
  rewrite rot_form. unfold b1, b2, b3. rewrite al_start.
  replace (0 * 0 * 0 - 3 * (0 * 0) + 3 * 0) with 0 by ring.
  replace (- 2 * (0 * 0 * 0) + 3 * (0 * 0)) with 0 by ring. replace (0 * 0 * 0) with 0 by ring.
  now rewrite !vscale_0, qexp_zero, !qmul_one_r.
Qed.

Lemma rot_end : unit_quat (qA a) -> unit_quat (qA b) -> same_rotation (rot tb) (qA b).
Proof.
  intros Ha Hb. rewrite rot_form. unfold b1, b2, b3. rewrite al_end.
  replace (1 * 1 * 1 - 3 * (1 * 1) + 3 * 1) with 1 by ring.
  replace (- 2 * (1 * 1 * 1) + 3 * (1 * 1)) with 1 by ring. replace (1 * 1 * 1) with 1 by ring.
  rewrite !vscale_1.
  assert (Hu : unit_quat (qmul (qmul (qmul (qexp (vneg w1)) (qconj (qA a))) (qA b)) (qexp (vneg w3)))).
  { repeat apply unit_mul; auto; try apply qexp_unit. now apply unit_conj. }
  pose proof (proj2 HK _ Hu) as E. fold w2 in E.
  replace (qA b) with (qmul (qmul (qmul (qA a) (qexp w1))
    (qmul (qmul (qmul (qexp (vneg w1)) (qconj (qA a))) (qA b)) (qexp (vneg w3)))) (qexp w3)).
  - apply same_rotation_mul_r, same_rotation_mul_l. exact E.
  - rewrite !qmul_assoc, qexp_neg_l, qmul_one_r, <- (qmul_assoc (qexp w1)), qexp_neg_r, qmul_one_l.
    now rewrite <- qmul_assoc, unit_conj_r, qmul_one_l.
Qed.

Lemma rot_derivative t : quat_derivative rot t (qscale (qdiff t) (/ 2)).
Proof.
  apply quat_derivative_eq with (f := fun s => qmul (qmul (qmul (qA a) (qexp (vscale (b1 s) w1)))
    (qexp (vscale (b2 s) w2))) (qexp (vscale (b3 s) w3))); [intros s; now rewrite rot_form|].
  pose proof (quat_derivative_mul _ _ t _ _ (quat_derivative_mul _ _ t _ _ (quat_derivative_mul _ _ t _ _
    (quat_derivative_const (qA a) t) (qexp_derivative w1 b1 t _ (b1_derive t)))
    (qexp_derivative w2 b2 t _ (b2_derive t))) (qexp_derivative w3 b3 t _ (b3_derive t))) as D.
  eapply quat_derivative_ext; [|exact D]. rewrite qdiff_form.
  generalize (qexp (vscale (b1 t) w1)) as e1. generalize (qexp (vscale (b2 t) w2)) as e2.
  generalize (qexp (vscale (b3 t) w3)) as e3. intros e3 e2 e1.
  generalize (qpure (vscale (db1 t) w1)) as P1. generalize (qpure (vscale (db2 t) w2)) as P2.
  generalize (qpure (vscale (db3 t) w3)) as P3. intros P3 P2 P1.
  rewrite !qmul_scale_r, !qmul_add_l, !qmul_scale_l, !qmul_assoc.
  replace (qmul (Quat 0 0 0 0) (qmul e1 (qmul e2 e3))) with (Quat 0 0 0 0 : quat R) by (apply quat_ext; cbn; numR; ring).
  apply quat_ext; cbn [qadd qscale qw qx qy qz]; numR; ring.
Qed.

(** The angular velocity of the code on this segment. *)
Definition omega (t : R) : vec3 R := qrotate (rot t) (qimag (qmul (qconj (rot t)) (qdiff t))).

Lemma qdiff_pure t : unit_quat (qA a) -> qw (qmul (qconj (rot t)) (qdiff t)) = 0.
Proof.
  intros Ha. rewrite rot_form, qdiff_form.
  set (e1 := qexp (vscale (b1 t) w1)). set (e2 := qexp (vscale (b2 t) w2)). set (e3 := qexp (vscale (b3 t) w3)).
  assert (U1 : unit_quat (qmul (qA a) e1)) by (apply unit_mul; auto; apply qexp_unit).
  assert (U2 : unit_quat (qmul (qmul (qA a) e1) e2)) by (apply unit_mul; auto; apply qexp_unit).
  assert (U3 : unit_quat (qmul (qmul (qmul (qA a) e1) e2) e3)) by (apply unit_mul; auto; apply qexp_unit).
  rewrite !qmul_add_r. set (P1 := vscale (db1 t) w1). set (P2 := vscale (db2 t) w2). set (P3 := vscale (db3 t) w3).
  assert (E1 : qmul (qconj (qmul (qmul (qmul (qA a) e1) e2) e3)) (qmul (qmul (qmul (qmul (qA a) e1) (qpure P1)) e2) e3) =
    qmul (qmul (qconj (qmul e2 e3)) (qpure P1)) (qmul e2 e3)).
  { rewrite (qmul_assoc (qmul (qA a) e1) e2 e3), (qconj_mul (qmul (qA a) e1)), !(qmul_assoc (qmul (qA a) e1)).
    rewrite (qmul_assoc (qconj _) (qconj _)), <- (qmul_assoc (qconj (qmul (qA a) e1))), unit_conj_l, qmul_one_l by auto.
    now rewrite !qmul_assoc. }
  assert (E2 : qmul (qconj (qmul (qmul (qmul (qA a) e1) e2) e3)) (qmul (qmul (qmul (qmul (qA a) e1) e2) (qpure P2)) e3) =
    qmul (qmul (qconj e3) (qpure P2)) e3).
  { rewrite (qconj_mul (qmul (qmul (qA a) e1) e2)), !(qmul_assoc (qmul (qmul (qA a) e1) e2)).
    rewrite (qmul_assoc (qconj e3)), <- (qmul_assoc (qconj (qmul (qmul (qA a) e1) e2))), unit_conj_l, qmul_one_l by auto.
    now rewrite !qmul_assoc. }
  rewrite E1, E2, <- (qmul_assoc (qconj (qmul (qmul (qmul (qA a) e1) e2) e3)) _ (qpure P3)), unit_conj_l, qmul_one_l by auto.
  cbn [qadd qw]. numR. rewrite !conj_pure. cbn. ring.
Qed.

Lemma omega_qdiff t : unit_quat (qA a) -> qmul (qpure (omega t)) (rot t) = qdiff t.
Proof.
  intros Ha. pose proof (rot_unit t Ha) as Hu. unfold omega.
  rewrite pure_rotate, pure_imag by now apply qdiff_pure.
  rewrite <- (qmul_assoc (rot t)), unit_conj_r, qmul_one_l, qmul_assoc, unit_conj_l, qmul_one_r by auto.
  reflexivity.
Qed.

(** The equation of motion. *)
Lemma rot_motion t : unit_quat (qA a) -> quat_derivative rot t (qscale (qmul (qpure (omega t)) (rot t)) (/ 2)).
Proof. intros Ha. rewrite omega_qdiff by auto. apply rot_derivative. Qed.

Lemma omega_start : unit_quat (qA a) -> omega ta = wA a.
Proof.
  intros Ha. unfold omega. rewrite rot_start, qdiff_form. unfold b1, b2, b3, db1, db2, db3. rewrite al_start.
  replace (0 * 0 * 0 - 3 * (0 * 0) + 3 * 0) with 0 by ring.
  replace (- 2 * (0 * 0 * 0) + 3 * (0 * 0)) with 0 by ring. replace (0 * 0 * 0) with 0 by ring.
  replace (3 * ((1 - 0) * (1 - 0)) / (tb - ta)) with (3 / (tb - ta)) by (field; lra).
  replace (6 * 0 * (1 - 0) / (tb - ta)) with 0 by (field; lra).
  replace (3 * (0 * 0) / (tb - ta)) with 0 by (field; lra).
  rewrite !vscale_0, qexp_zero, !qmul_one_r.
  replace (qpure (V3 0 0 0)) with (Quat 0 0 0 0 : quat R) by reflexivity.
  rewrite !quat_zero_r, !quat_add_zero_r.
  rewrite <- qmul_assoc, unit_conj_l, qmul_one_l, qrotate_matrix by auto.
  replace (qimag (qpure (vscale (3 / (tb - ta)) w1))) with (vscale (3 / (tb - ta)) w1) by now destruct w1.
  unfold w1. rewrite !rotation_scale, vscale_vscale, rotation_inv by auto.
  replace (3 / (tb - ta) * third) with 1 by (unfold third; field; lra). apply vscale_1.
Qed.

Lemma omega_end : unit_quat (qA a) -> unit_quat (qA b) -> omega tb = wA b.
Proof.
  intros Ha Hb. pose proof (rot_unit tb Ha) as Hu. unfold omega.
  assert (E : qdiff tb = qmul (rot tb) (qpure (vscale (3 / (tb - ta)) w3))).
  { rewrite rot_form, qdiff_form. unfold db1, db2, db3. rewrite al_end.
    replace (3 * ((1 - 1) * (1 - 1)) / (tb - ta)) with 0 by (field; lra).
    replace (6 * 1 * (1 - 1) / (tb - ta)) with 0 by (field; lra).
    replace (3 * (1 * 1) / (tb - ta)) with (3 / (tb - ta)) by (field; lra).
    rewrite !vscale_0. replace (qpure (V3 0 0 0)) with (Quat 0 0 0 0 : quat R) by reflexivity.
    now rewrite !quat_zero_r, !quat_zero_l, !quat_add_zero_l. }
  rewrite E, <- qmul_assoc, unit_conj_l, qmul_one_l, qrotate_matrix by auto.
  rewrite (same_rotation_matrix _ _ _ (rot_end Ha Hb)).
  replace (qimag (qpure (vscale (3 / (tb - ta)) w3))) with (vscale (3 / (tb - ta)) w3) by now destruct w3.
  unfold w3. rewrite !rotation_scale, vscale_vscale, rotation_inv by auto.
  replace (3 / (tb - ta) * third) with 1 by (unfold third; field; lra). apply vscale_1.
Qed.
Lemma dlim_cont (f : R -> R) t l : derivable_pt_lim f t l -> continuity_pt f t.
Proof. intros D. apply derivable_continuous_pt. exists l. exact D. Qed.

Lemma db1_cont t : continuity_pt db1 t.
Proof. unfold db1, al, Rdiv. cont; apply derivable_continuous_pt, derivable_pt_id. Qed.
Lemma db2_cont t : continuity_pt db2 t.
Proof. unfold db2, al, Rdiv. cont; apply derivable_continuous_pt, derivable_pt_id. Qed.
Lemma db3_cont t : continuity_pt db3 t.
Proof. unfold db3, al, Rdiv. cont; apply derivable_continuous_pt, derivable_pt_id. Qed.

Lemma qdiff_cont t : quat_cont qdiff t.
Proof.
  pose proof (qc_derivative _ _ _ (qexp_derivative w1 b1 t _ (b1_derive t))) as E1.
  pose proof (qc_derivative _ _ _ (qexp_derivative w2 b2 t _ (b2_derive t))) as E2.
  pose proof (qc_derivative _ _ _ (qexp_derivative w3 b3 t _ (b3_derive t))) as E3.
  pose proof (qc_pure db1 w1 t (db1_cont t)) as P1. pose proof (qc_pure db2 w2 t (db2_cont t)) as P2.
  pose proof (qc_pure db3 w3 t (db3_cont t)) as P3. pose proof (qc_const (qA a) t) as Q.
  eapply qc_ext; [intros s; symmetry; apply qdiff_form|].
  repeat first [assumption | apply qc_add | apply qc_mul].
Qed.

Lemma omega_continuous t i : continuity_pt (fun s => coord i (omega s)) t.
Proof.
  pose proof (qc_derivative _ _ _ (rot_derivative t)) as C.
  apply (qc_rotation rot t (fun s => qmul (qconj (rot s)) (qdiff s)) i); [exact C|].
  apply qc_mul; [now apply qc_conj|apply qdiff_cont].
Qed.
End One.
End Segment.
