(** * C48: curves from ROS trajectory messages *)

From Coquelicot Require Import Coquelicot.
From Coq Require Import String.
From Coq Require Import List Reals Lra Lia Bool Arith NArith ZArith.
From Verif Require Import Base TimeOrder TimeInst KeyGen Manager ManagerSpec Num Sampling Spline LinSpec Container
  SetDataSpec SetDataTop SplineCurves Props_SetData Props_SplineCurves
  HermiteE3 HermiteSpec Quat QuatSpec HermiteSE3 HermiteSE3Spec QuatLog Props_HermiteSE3 Ros.
Import ListNotations.
Local Open Scope R_scope.

(** [j] is the position of the first entry equal to [name]. *)
Definition first_entry (names : list string) (name : string) (j : nat) : Prop :=
  nth_error names j = Some name /\ forall i, (i < j)%nat -> nth_error names i <> Some name.

(** Seconds of the [i]-th point, and the [j]-th entry of its array. *)
Definition times_of {A} (m : message A) : list R :=
  map (fun p => IZR (pt_sec p) + IZR (pt_nsec p) / 1000000000) (points m).

Lemma joint_loop_found name : forall names j k, first_entry names name j -> joint_loop names name k = Some (k + j)%nat.
Proof.
  induction names as [|n r IH]; intros j k [E Hb]; [destruct j; discriminate|].
  simpl. destruct (String.eqb_spec n name) as [->|Hn].
  - destruct j as [|j]; [now rewrite Nat.add_0_r|]. elim (Hb 0%nat); [lia|reflexivity].
  - destruct j as [|j]; [simpl in E; congruence|]. simpl in E.
    destruct r as [|n' r']; [destruct j; discriminate|].
    rewrite (IH j (S k)); [f_equal; lia|]. split; auto. intros i Hi. apply (Hb (S i)). lia.
Qed.

Lemma joint_loop_missing name : forall names k, names <> [] -> ~ In name names -> joint_loop names name k = None.
Proof.
  induction names as [|n r IH]; intros k Hne Hi; [congruence|].
  simpl in *. destruct (String.eqb_spec n name) as [->|Hn]; [tauto|].
  destruct r as [|n' r']; [reflexivity|]. apply IH; [discriminate|tauto].
Qed.

Lemma first_entry_exists name : forall names, In name names -> exists j, first_entry names name j.
Proof.
  induction names as [|n r IH]; intros Hi; [destruct Hi|].
  destruct (string_dec n name) as [->|Hn].
  - exists 0%nat. split; [reflexivity|]. intros i Hi0. lia.
  - destruct IH as (j & E & Hb); [destruct Hi; [congruence|auto]|]. exists (S j). split; [exact E|].
    intros [|i] Hij; simpl; [congruence|]. apply Hb. lia.
Qed.

Lemma read_points_ok {A V} (convert : A -> V) (d : A) j : forall ps : list (point A),
  (forall p, In p ps -> (j < length (pt_data p))%nat) ->
  read_points convert j ps =
    Ok (map (fun p => IZR (pt_sec p) + IZR (pt_nsec p) / 1000000000) ps,
        map (fun p => convert (nth j (pt_data p) d)) ps).
Proof.
  induction ps as [|p r IH]; intros Hl; [reflexivity|]. simpl.
  rewrite (nth_error_nth' (pt_data p) d) by (apply Hl; now left).
  rewrite IH by (intros q Hq; apply Hl; now right). reflexivity.
Qed.

Lemma read_points_short {A V} (convert : A -> V) j : forall ps : list (point A),
  (exists p, In p ps /\ (length (pt_data p) <= j)%nat) -> @read_points R _ _ _ convert j ps = UB.
Proof.
  induction ps as [|p r IH]; intros (q & Hq & Hl); [destruct Hq|]. simpl.
  destruct (nth_error (pt_data p) j) eqn:E; [|reflexivity].
  destruct Hq as [->|Hq]; [apply nth_error_None in Hl; congruence|]. rewrite IH by eauto. reflexivity.
Qed.

Section AnyCurve.
Context {A V C : Type} (convert : A -> V) (fit : C -> list R -> list V -> outcome C).

(** The joint is not in a list of names: false, and the curve is as it was,
    whatever the points are. *)
Theorem C48_missing_joint : forall (c : C) (m : message A) name,
  joint_names m <> [] -> ~ In name (joint_names m) ->
  from_message convert fit c m name = Ok (false, c).
Proof.
  intros c m name Hne Hi. unfold from_message. now rewrite joint_loop_missing.
Qed.

(** The joint is in the list: the curve is fitted to the data of its first entry. *)
Theorem C48_first_entry : forall (c : C) (m : message A) name j (d : A),
  first_entry (joint_names m) name j -> (forall p, In p (points m) -> (j < length (pt_data p))%nat) ->
  from_message convert fit c m name =
    (let* c' := fit c (times_of m) (map (fun p => convert (nth j (pt_data p) d)) (points m)) in Ok (true, c')).
Proof.
  intros c m name j d Hj Hl. unfold from_message. rewrite (joint_loop_found name _ j 0%nat Hj). simpl.
  rewrite (read_points_ok convert d j (points m) Hl). reflexivity.
Qed.

(** A point with too few entries is read beyond its end. *)
Theorem C48_short_point : forall (c : C) (m : message A) name j,
  first_entry (joint_names m) name j -> (exists p, In p (points m) /\ (length (pt_data p) <= j)%nat) ->
  from_message convert fit c m name = UB.
Proof.
  intros c m name j Hj Hp. unfold from_message. rewrite (joint_loop_found name _ j 0%nat Hj). simpl.
  now rewrite read_points_short.
Qed.

(** Without names every joint is found, at entry 0. *)
Theorem C48_no_names_refuted : forall (c : C) (m : message A) name (d : A),
  joint_names m = [] ->
  ((forall p, In p (points m) -> pt_data p <> []) ->
     from_message convert fit c m name =
       (let* c' := fit c (times_of m) (map (fun p => convert (nth 0 (pt_data p) d)) (points m)) in Ok (true, c'))) /\
  ((exists p, In p (points m) /\ pt_data p = []) -> from_message convert fit c m name = UB).
Proof.
  intros c m name d E. unfold from_message. rewrite E. simpl. split.
  - intros Hl. rewrite (read_points_ok convert d 0 (points m)); [reflexivity|].
    intros p Hp. specialize (Hl p Hp). destruct (pt_data p); [congruence|simpl; lia].
  - intros (p & Hp & Ep). rewrite read_points_short; [reflexivity|]. exists p. split; [exact Hp|]. now rewrite Ep.
Qed.
End AnyCurve.

(** ** What the three classes do with it *)

(** Joint trajectory: the curve goes through the positions of that joint at the
    times of the points, at rest at both ends. *)
Theorem C48_joint_trajectory : forall (solve : solver R) c (m : message R) name j,
  exact_solver solve -> first_entry (joint_names m) name j ->
  (forall p, In p (points m) -> (j < length (pt_data p))%nat) ->
  (2 <= length (points m))%nat -> (Z.of_nat (length (points m)) < 2 ^ 29)%Z -> increasing (times_of m) ->
  exists c', ros_joint solve c m name = Ok (true, c') /\
    sc_get_min_time c' = nth 0 (times_of m) 0 /\
    sc_get_max_time c' = nth (length (points m) - 1) (times_of m) 0 /\
    (forall i p, nth_error (points m) i = Some p ->
       sc_evaluate 5 c' (nth i (times_of m) 0) = Ok (true, nth j (pt_data p) 0)) /\
    forall old n, (n = 1 \/ n = 2)%Z ->
      sc_evaluate_derivative 5 c' old (sc_get_min_time c') n = Ok (true, 0) /\
      sc_evaluate_derivative 5 c' old (sc_get_max_time c') n = Ok (true, 0).
Proof.
  intros solve c m name j Hs Hj Hl Hn Hb Hi. unfold ros_joint.
  rewrite (C48_first_entry (fun a => a) (sc_fit solve 5) c m name j 0 Hj Hl).
  set (vs := map (fun p => nth j (pt_data p) 0) (points m)).
  assert (Hv : valid_knots (times_of m) vs).
  { unfold valid_knots, times_of, vs. rewrite !map_length. auto. }
  destruct (C31_default solve c (times_of m) vs Hs Hv) as (c' & E & Emin & Emax & Ev & Ed).
  assert (L : length (times_of m) = length (points m)) by (unfold times_of; now rewrite map_length).
  exists c'. split; [rewrite E; reflexivity|]. split; [exact Emin|]. split; [rewrite <- L; exact Emax|]. split.
  - intros i p Hp. assert (Hlt : (i < length (points m))%nat) by (apply nth_error_Some; congruence).
    rewrite Ev by (unfold times_of; now rewrite map_length). do 2 f_equal. unfold vs.
    rewrite (nth_indep _ 0 (nth j (pt_data p) 0)) by now rewrite map_length.
    rewrite (map_nth (fun q => nth j (pt_data q) 0)). now rewrite (nth_error_nth _ _ _ Hp).
  - intros old n Hn0. rewrite Emin, Emax. now apply Ed.
Qed.

(** It returns true also for points that are not in time order; the curve is then zero
    everywhere. *)
Theorem C48_true_is_success_refuted : forall (solve : solver R) c (m : message R) name j i,
  first_entry (joint_names m) name j -> (forall p, In p (points m) -> (j < length (pt_data p))%nat) ->
  (Z.of_nat (length (points m)) < 2 ^ 29)%Z ->
  (i + 1 < length (points m))%nat -> nth (i + 1) (times_of m) 0 <= nth i (times_of m) 0 ->
  exists c', ros_joint solve c m name = Ok (true, c') /\ forall t, sc_evaluate 5 c' t = Ok (true, 0).
Proof.
  intros solve c m name j i Hj Hl Hb Hi Hle. unfold ros_joint.
  rewrite (C48_first_entry (fun a => a) (sc_fit solve 5) c m name j 0 Hj Hl).
  assert (L : length (times_of m) = length (points m)) by (unfold times_of; now rewrite map_length).
  destruct (C32_silent_failure solve c (times_of m) (map (fun p => nth j (pt_data p) 0) (points m)) 0 0 0 0 i)
    as (c' & E & _ & _ & Ev); [now rewrite L|now rewrite L|exact Hle|].
  exists c'. split; [|exact Ev]. unfold sc_fit. change (nofZ 0) with (IZR 0). rewrite E. reflexivity.
Qed.

(** No points: undefined behaviour for the two spline classes, an empty curve for
    poses. *)
Theorem C48_no_points : forall (solve : solver R) name,
  (forall c (m : message R), points m = [] -> (joint_names m = [] \/ In name (joint_names m)) ->
     ros_joint solve c m name = UB) /\
  (forall c (m : message (vec3 R)), points m = [] -> (joint_names m = [] \/ In name (joint_names m)) ->
     ros_translation solve c m name = UB) /\
  (forall K A (convert : A -> pose R) g c (m : message A), points m = [] ->
     (joint_names m = [] \/ In name (joint_names m)) ->
     exists c', ros_pose K convert g c m name = Ok (true, (g, c')) /\ se3_is_empty c' = true).
Proof.
  intros solve name.
  assert (X : forall names, names = [] \/ In name names -> exists j, joint_loop names name 0 = Some j).
  { intros names [->|Hi]; [exists 0%nat; reflexivity|].
    destruct (first_entry_exists _ _ Hi) as (j & Hj). exists j. exact (joint_loop_found _ _ _ 0%nat Hj). }
  split; [|split].
  - intros c m Ep Hn. destruct (X _ Hn) as (j & Ej). unfold ros_joint, from_message. rewrite Ej, Ep. simpl. reflexivity.
  - intros c m Ep Hn. destruct (X _ Hn) as (j & Ej). unfold ros_translation, from_message. rewrite Ej, Ep. reflexivity.
  - intros K A convert g c m Ep Hn. destruct (X _ Hn) as (j & Ej). unfold ros_pose, from_message. rewrite Ej, Ep.
    eexists. split; reflexivity.
Qed.

(** Translations: through the data, but in time since the first point (C33). *)
Theorem C48_translations : forall (solve : solver R) c (m : message (vec3 R)) name j,
  exact_solver solve -> length (vc_containers c) = 3%nat -> first_entry (joint_names m) name j ->
  (forall p, In p (points m) -> (j < length (pt_data p))%nat) ->
  (2 <= length (points m))%nat -> (Z.of_nat (length (points m)) < 2 ^ 29)%Z -> increasing (times_of m) ->
  exists c', ros_translation solve c m name = Ok (true, c') /\ vc_get_min_time c' = nth 0 (times_of m) 0 /\
    forall i p, nth_error (points m) i = Some p ->
      let v := nth j (pt_data p) (V3 0 0 0) in
      vc_evaluate c' (nth i (times_of m) 0 - nth 0 (times_of m) 0) = Ok (true, [vx v; vy v; vz v]).
Proof.
  intros solve c m name j Hs H3 Hj Hl Hn Hb Hi. unfold ros_translation.
  rewrite (C48_first_entry (fun v : vec3 R => [vx v; vy v; vz v]) (vc_fit solve) c m name j (V3 0 0 0) Hj Hl).
  set (f := fun p : point (vec3 R) => let v := nth j (pt_data p) (V3 0 0 0) in [vx v; vy v; vz v]).
  change (map _ (points m)) with (map f (points m)).
  assert (Hv : valid_vectors (length (vc_containers c)) (times_of m) (map f (points m))).
  { unfold valid_vectors, times_of. rewrite !map_length. repeat split; auto. rewrite H3. apply Forall_forall.
    intros v Hin. apply in_map_iff in Hin as (p & <- & _). reflexivity. }
  unfold vc_fit. rewrite H3. cbn [repeat].
  destruct (C33_relative_time solve c (times_of m) (map f (points m)) [0; 0; 0] [0; 0; 0] [0; 0; 0] [0; 0; 0] Hs)
    as (c' & E & Emin & _ & Ev & _); auto; try (rewrite H3; reflexivity).
  { intros X. rewrite X in H3. discriminate. }
  exists c'. split; [change (nofZ 0) with (IZR 0); rewrite E; reflexivity|]. split; [exact Emin|].
  cbn zeta. intros i p Hp. assert (Hlt : (i < length (points m))%nat) by (apply nth_error_Some; congruence).
  rewrite Ev by (unfold times_of; now rewrite map_length). do 2 f_equal.
  rewrite (nth_indep _ [] (f p)) by now rewrite map_length.
  rewrite (map_nth f). now rewrite (nth_error_nth _ _ _ Hp).
Qed.

(** Poses: through the converted transforms at the times of the points. *)
Theorem C48_poses : forall K {A} (convert : A -> pose R) g (c : se3_curve R) (m : message A) name j d,
  exact_kindr K -> (forall p, In p (points m) -> unit_quat (p_rot (convert (nth j (pt_data p) d)))) ->
  first_entry (joint_names m) name j ->
  (forall p, In p (points m) -> (j < length (pt_data p))%nat) ->
  increasing_times (times_of m) -> (g + N.of_nat (length (points m)) < 2 ^ 64)%N ->
  exists g' c', ros_pose K convert g c m name = Ok (true, (g', c')) /\
    forall i p t, nth_error (points m) i = Some p -> nth_error (times_of m) i = Some t ->
      exists q, se3_evaluate K c' t = Ok (Some (Pose (p_pos (convert (nth j (pt_data p) d))) q)) /\
        same_rotation q (p_rot (convert (nth j (pt_data p) d))).
Proof.
  intros K A convert g c m name j d HK Hu Hj Hl Hi Hg. unfold ros_pose.
  rewrite (C48_first_entry convert _ (g, c) m name j d Hj Hl). cbn [fst snd].
  set (vs := map (fun p => convert (nth j (pt_data p) d)) (points m)).
  assert (L : length (times_of m) = length (points m)) by (unfold times_of; now rewrite map_length).
  destruct (C34_se3_fit_curve K g c (times_of m) vs [] HK) as (g' & c' & out' & E & _ & Ev & _).
  - unfold vs. now rewrite L, map_length.
  - exact Hi.
  - rewrite L. exact Hg.
  - intros v Hv. apply in_map_iff in Hv as (p & <- & Hp). now apply Hu.
  - exists g', c'. split; [rewrite E; reflexivity|].
    intros i p t Hp Ht. apply (Ev i t); [exact Ht|]. unfold vs. rewrite nth_error_map, Hp. reflexivity.
Qed.

(** One point: true as well, with a curve that is zero. *)
Theorem C48_one_point_refuted : forall (solve : solver R) c name names (p : point R) j,
  first_entry names name j -> (j < length (pt_data p))%nat ->
  exists c', ros_joint solve c (Message names [p]) name = Ok (true, c') /\
    forall t, sc_evaluate 5 c' t = Ok (true, 0).
Proof.
  intros solve c name names p j Hj Hl. unfold ros_joint.
  rewrite (C48_first_entry (fun a => a) (sc_fit solve 5) c (Message names [p]) name j 0 Hj)
    by (intros q [<-|[]]; exact Hl).
  eexists. split; [reflexivity|]. reflexivity.
Qed.

(** A message with two joints and two points. *)
Example C48_example : exists (m : message R) c',
  first_entry (joint_names m) "knee" 1 /\ increasing (times_of m) /\
  ros_joint gauss sc_new m "knee" = Ok (true, c') /\ sc_evaluate 5 c' (5 / 2) = Ok (true, 4) /\
  ros_joint gauss sc_new m "hip" = Ok (false, sc_new) /\
  from_message (fun a => a) (sc_fit gauss 5) sc_new (Message [] (points m)) "hip" <> Ok (false, sc_new).
Proof.
  set (m := Message ["ankle"%string; "knee"%string] [Point 1 0 [1; 2]; Point 2 500000000 [3; 4]]).
  assert (Hj : first_entry (joint_names m) "knee" 1).
  { split; [reflexivity|]. intros [|i] Hi; [discriminate|lia]. }
  assert (Hl : forall p, In p (points m) -> (1 < length (pt_data p))%nat).
  { intros p [<-|[<-|[]]]; simpl; lia. }
  assert (Hi : increasing (times_of m)).
  { intros [|i] Hi; simpl in *; [lra|lia]. }
  destruct (C48_joint_trajectory gauss sc_new m "knee" 1 gauss_exact Hj Hl) as (c' & E & _ & _ & Ev & _); simpl; auto; try lia.
  exists m, c'. split; [exact Hj|]. split; [exact Hi|]. split; [exact E|]. split.
  - specialize (Ev 1%nat _ eq_refl). simpl in Ev. rewrite <- Ev. f_equal. lra.
  - split.
    + apply C48_missing_joint; simpl; [discriminate|]. intros [X|[X|[]]]; discriminate.
    + destruct (C48_no_names_refuted (fun a : R => a) (sc_fit gauss 5) sc_new (Message [] (points m)) "hip" 0 eq_refl) as [X _].
      rewrite X by (intros p [<-|[<-|[]]]; discriminate).
      destruct (sc_fit gauss 5 sc_new _ _); simpl; congruence.
Qed.

(** A message of poses, and the same as translations; points out of order. *)
Example C48_poses_example : exists g' c',
  ros_pose std_kindr (fun v => Pose v (Quat 1 0 0 0)) 0 se3_new
    (Message ["base"%string] [Point 1 0 [V3 1 2 3]; Point 2 0 [V3 3 4 5]]) "base" = Ok (true, (g', c')).
Proof.
  destruct (C48_poses std_kindr (fun v : vec3 R => Pose v (Quat 1 0 0 0)) 0 se3_new
    (Message ["base"%string] [Point 1 0 [V3 1 2 3]; Point 2 0 [V3 3 4 5]]) "base" 0 (V3 0 0 0)) as (g' & c' & E & _).
  - exact std_log_exact.
  - intros p _. unfold unit_quat. cbn. lra.
  - split; [reflexivity|]. intros i Hi. lia.
  - intros p [<-|[<-|[]]]; simpl; lia.
  - intros [|i] Hi; unfold at_knot; simpl in *; [lra|lia].
  - reflexivity.
  - eauto.
Qed.

Example C48_translations_example : exists c',
  ros_translation gauss (vc_new 3) (Message ["base"%string] [Point 1 0 [V3 1 2 3]; Point 2 0 [V3 3 4 5]]) "base"
    = Ok (true, c') /\ vc_evaluate c' 1 = Ok (true, [3; 4; 5]).
Proof.
  destruct (C48_translations gauss (vc_new 3)
    (Message ["base"%string] [Point 1 0 [V3 1 2 3]; Point 2 0 [V3 3 4 5]]) "base" 0 gauss_exact eq_refl)
    as (c' & E & _ & Ev); simpl; try lia.
  - split; [reflexivity|]. intros i Hi. lia.
  - intros p [<-|[<-|[]]]; simpl; lia.
  - intros [|i] Hi; simpl in *; [lra|lia].
  - exists c'. split; [exact E|]. specialize (Ev 1%nat _ eq_refl). cbn in Ev. rewrite <- Ev. f_equal. lra.
Qed.

Example C48_disorder_example : exists c',
  ros_joint gauss sc_new (Message ["a"%string] [Point 2 0 [7]; Point 1 0 [8]]) "a" = Ok (true, c') /\
  sc_evaluate 5 c' 2 = Ok (true, 0).
Proof.
  destruct (C48_true_is_success_refuted gauss sc_new (Message ["a"%string] [Point 2 0 [7]; Point 1 0 [8]]) "a" 0 0)
    as (c' & E & Ev); simpl; try lia; try lra.
  - split; [reflexivity|]. intros i Hi. lia.
  - intros p [<-|[<-|[]]]; simpl; lia.
  - eauto.
Qed.

Print Assumptions C48_missing_joint.
Print Assumptions C48_joint_trajectory.
Print Assumptions C48_poses.
