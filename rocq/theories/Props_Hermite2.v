(** * C36 for SE3, C71 - C73: locality, reversal and overshoot of cubic Hermite curves *)

From Coquelicot Require Import Coquelicot.
From Coq Require Import List Reals Lra Lia Bool Arith NArith ZArith.
From Verif Require Import Base TimeOrder TimeInst KeyGen Manager ManagerSpec ManagerProofs ManagerProofs2
  ManagerProofs3 Num Sampling SamplingSpec SamplingProofs SplineSpec SetDataTraj HermiteE3 HermiteSpec HermiteE3Proofs
  Props_HermiteE3 Quat QuatSpec QuatProofs QuatLog HermiteSE3 HermiteSE3Spec HermiteSE3Proofs HermiteSE3Curve
  HermiteSE3Motion Props_HermiteSE3.
Import ListNotations.
Local Open Scope R_scope.

(** ** C36 for SE3 *)

(** The positions, linear velocities and linear accelerations a caller sees. *)
Definition se3_pos_at (K : kindr R) (c : se3_curve R) (t : R) : vec3 R :=
  match se3_evaluate K c t with Ok (Some p) => p_pos p | _ => V3 0 0 0 end.
Definition se3_vel_at (K : kindr R) (c : se3_curve R) (t : R) : vec3 R :=
  match se3_evaluate_derivative K c t 1 with Ok (Some w) => t_lin w | _ => V3 0 0 0 end.
Definition se3_acc_at (c : se3_curve R) (t : R) : vec3 R :=
  match se3_evaluate_acceleration c t with Ok (Some v) => v | _ => V3 0 0 0 end.

Lemma se3_pos_e3 K c t : se3_pos_at K c t = pos_at (translation c) t.
Proof. unfold se3_pos_at, pos_at. rewrite (translation_evaluate K). now destruct (se3_evaluate K c t) as [[p|]| | |]. Qed.
Lemma se3_vel_e3 K c t : se3_vel_at K c t = vel_at (translation c) t.
Proof.
  unfold se3_vel_at, vel_at. rewrite (translation_velocity K).
  now destruct (se3_evaluate_derivative K c t 1) as [[p|]| | |].
Qed.
Lemma se3_acc_e3 c t : se3_acc_at c t = acc_at (translation c) t.
Proof. unfold se3_acc_at, acc_at. now rewrite translation_acceleration. Qed.

Lemma derivable_ext (f g : R -> R) t l : (forall s, f s = g s) -> derivable_pt_lim f t l -> derivable_pt_lim g t l.
Proof. intros E H eps He. destruct (H eps He) as (d & X). exists d. intros h. rewrite <- !E. apply X. Qed.
Lemma continuity_ext (f g : R -> R) t : (forall s, f s = g s) -> continuity_pt f t -> continuity_pt g t.
Proof.
  intros E H eps He. destruct (H eps He) as (d & Hd & X). exists d. split; [exact Hd|].
  intros x Hx. rewrite <- !E. now apply X.
Qed.

(** Adjacent knots of the positions. *)
Lemma translation_adjacent (c : se3_curve R) ta ka tb kb : adjacent (contents (h_mgr c)) (ta, ka) (tb, kb) ->
  adjacent (contents (translation c)) (ta, @e3_knot R ka) (tb, @e3_knot R kb).
Proof.
  intros (u & v & E). unfold translation. rewrite map_contents, E, map_app. cbn [map fst snd].
  now eexists _, _.
Qed.

Theorem C36_se3_positions : forall K (c : se3_curve R) a,
  consistent (h_mgr c) -> (2 <= se3_size c)%nat ->
  (forall t, se3_min_time c < t < se3_max_time c ->
     derivable_pt_lim (fun s => coord a (se3_pos_at K c s)) t (coord a (se3_vel_at K c t)) /\
     continuity_pt (fun s => coord a (se3_vel_at K c s)) t) /\
  (forall ta ka tb kb t, adjacent (contents (h_mgr c)) (ta, ka) (tb, kb) -> ta < t < tb ->
     derivable_pt_lim (fun s => coord a (se3_vel_at K c s)) t (coord a (se3_acc_at c t))) /\
  right_derivative (fun s => coord a (se3_pos_at K c s)) (se3_min_time c) (coord a (se3_vel_at K c (se3_min_time c))) /\
  left_derivative (fun s => coord a (se3_pos_at K c s)) (se3_max_time c) (coord a (se3_vel_at K c (se3_max_time c))).
Proof.
  intros K c a Hc Hsz.
  destruct (C36_continuously_differentiable (translation c) a (map_consistent (@e3_knot R) _ Hc)) as (A & B & C & D).
  { unfold e3_size, translation. now rewrite map_size. }
  unfold e3_min_time, e3_max_time, translation in A, C, D. rewrite map_min_time, map_max_time in A.
  rewrite map_min_time in C. rewrite map_max_time in D. fold (translation c) in A, B, C, D.
  fold (se3_min_time c) in A, C. fold (se3_max_time c) in A, D.
  assert (P : forall s, coord a (pos_at (translation c) s) = coord a (se3_pos_at K c s)) by (intros; now rewrite se3_pos_e3).
  assert (V : forall s, coord a (vel_at (translation c) s) = coord a (se3_vel_at K c s)) by (intros; now rewrite se3_vel_e3).
  split; [|split; [|split]].
  - intros t Ht. destruct (A t Ht) as [A1 A2]. rewrite V in A1. split.
    + now apply (derivable_ext _ _ _ _ P).
    + now apply (continuity_ext _ _ _ V).
  - intros ta ka tb kb t Ha Ht. specialize (B _ _ _ _ t (translation_adjacent _ _ _ _ _ Ha) Ht).
    rewrite se3_acc_e3. now apply (derivable_ext _ _ _ _ V).
  - rewrite V in C. intros eps He. destruct (C eps He) as (d & Hd & X). exists d. split; [exact Hd|].
    intros h. rewrite <- !P. apply X.
  - rewrite V in D. intros eps He. destruct (D eps He) as (d & Hd & X). exists d. split; [exact Hd|].
    intros h. rewrite <- !P. apply X.
Qed.

(** ** C71 *)

(** The entry before the [j]-th one. *)
Definition before {A} (l : list A) (j : nat) : option A := match j with O => None | S i => nth_error l i end.

(** Two lists agree from the entry before [j] ([j'] in the other list) to the second
    entry after it; where one of them starts or ends so does the other one. *)
Definition same_four {A} (l l' : list A) (j j' : nat) : Prop :=
  before l j = before l' j' /\ nth_error l j = nth_error l' j' /\
  nth_error l (S j) = nth_error l' (S j') /\ nth_error l (S (S j)) = nth_error l' (S (S j')).

Lemma nth_adjacent {A} (l : list A) j x y : nth_error l j = Some x -> nth_error l (S j) = Some y ->
  exists u v, l = u ++ x :: y :: v /\ length u = j.
Proof.
  intros E1 E2. destruct (nth_error_split l j E1) as (u & r & -> & L). exists u.
  rewrite nth_error_app2 in E2 by lia. replace (S j - length u)%nat with 1%nat in E2 by lia.
  destruct r as [|z r]; [discriminate|]. injection E2 as ->. now exists r.
Qed.

(** The velocity a fit chooses, by neighbours. *)
Definition neighbour_velocity {V D} (slope : R -> R -> V -> V -> D) (d0 d1 : D) (l : list (R * V)) (i : nat) : D :=
  match before l i, nth_error l (S i) with
  | None, _ => d0
  | Some _, None => d1
  | Some (tp, vp), Some (tn, vn) => slope tp tn vp vn
  end.

Lemma combine_some {A B} (l : list A) (l' : list B) i a b da db : length l = length l' ->
  nth_error (combine l l') i = Some (a, b) -> nth i l da = a /\ nth i l' db = b /\ (i < length l)%nat.
Proof.
  intros Hl E. assert (L : (i < length l)%nat).
  { assert (X : (i < length (combine l l'))%nat) by (apply nth_error_Some; congruence).
    rewrite combine_length in X. lia. }
  assert (L' : (i < length l')%nat) by lia.
  rewrite (nth_error_combine l l' i _ _ (nth_error_nth' l da L) (nth_error_nth' l' db L')) in E.
  injection E as <- <-. auto.
Qed.

Lemma fit_velocity_neighbours (ts : list R) vs d0 d1 i : length ts = length vs -> (i < length ts)%nat ->
  fit_velocity ts vs d0 d1 i = neighbour_velocity e3_slope d0 d1 (combine ts vs) i.
Proof.
  intros Hl L. unfold fit_velocity, neighbour_velocity, before. destruct i as [|j]; [reflexivity|].
  assert (La : (j < length ts)%nat) by lia. assert (Lb : (j < length vs)%nat) by lia.
  rewrite (nth_error_combine ts vs j _ _ (nth_error_nth' ts tzero La) (nth_error_nth' vs vzero Lb)).
  destruct (Nat.eqb_spec (S (S j)) (length ts)) as [E|E].
  - rewrite (proj2 (nth_error_None _ _)); [reflexivity|]. rewrite combine_length. lia.
  - assert (Ma : (S (S j) < length ts)%nat) by lia. assert (Mb : (S (S j) < length vs)%nat) by lia.
    rewrite (nth_error_combine ts vs (S (S j)) _ _ (nth_error_nth' ts tzero Ma) (nth_error_nth' vs vzero Mb)).
    reflexivity.
Qed.

Lemma same_velocity {V D} (slope : R -> R -> V -> V -> D) d0 d1 d0' d1' l l' j j' :
  before l j = before l' j' -> nth_error l (S j) = nth_error l' (S j') ->
  (before l j = None -> d0 = d0') -> (before l j <> None -> nth_error l (S j) = None -> d1 = d1') ->
  neighbour_velocity slope d0 d1 l j = neighbour_velocity slope d0' d1' l' j'.
Proof.
  intros E1 E2 H0 H1. unfold neighbour_velocity. rewrite <- E1, <- E2.
  destruct (before l j) as [[tp vp]|]; [|auto]. destruct (nth_error l (S j)) as [[tn vn]|]; [reflexivity|].
  apply H1; congruence.
Qed.

(** Between two points of a fit the curve depends on these two and their neighbours
    only, and on the end velocities where there is no neighbour. *)
Theorem C71_local : forall debug g g' (c c' : e3_curve R) ts ts' ps ps' d0 d1 d0' d1' out out' j j' ta pa tb pb,
  consistent c -> e3_size c = 0%nat -> length ts = length ps -> increasing_times ts -> (g + N.of_nat (length ts) < 2 ^ 64)%N ->
  consistent c' -> e3_size c' = 0%nat -> length ts' = length ps' -> increasing_times ts' -> (g' + N.of_nat (length ts') < 2 ^ 64)%N ->
  same_four (combine ts ps) (combine ts' ps') j j' ->
  nth_error (combine ts ps) j = Some (ta, pa) -> nth_error (combine ts ps) (S j) = Some (tb, pb) ->
  (j = 0%nat -> d0 = d0') -> (S (S j) = length ts -> d1 = d1') ->
  exists r r', e3_fit_with_derivatives debug g c ts ps d0 d1 out = Ok r /\
    e3_fit_with_derivatives debug g' c' ts' ps' d0' d1' out' = Ok r' /\
    let x := snd (fst r) in let x' := snd (fst r') in
    forall t, ta <= t <= tb ->
      e3_evaluate x t = e3_evaluate x' t /\ e3_evaluate_derivative x t 1 = e3_evaluate_derivative x' t 1 /\
      (t < tb -> e3_evaluate_derivative x t 2 = e3_evaluate_derivative x' t 2).
Proof.
  intros debug g g' c c' ts ts' ps ps' d0 d1 d0' d1' out out' j j' ta pa tb pb
    Hc Hz Hl Hi Hg Hc' Hz' Hl' Hi' Hg' (F0 & F1 & F2 & F3) Ea Eb H0 H1.
  destruct (e3_fit_spec debug g c ts ps d0 d1 out Hc Hz Hl Hi Hg) as (x & ks & E & _ & [Hx _] & Hcon).
  destruct (e3_fit_spec debug g' c' ts' ps' d0' d1' out' Hc' Hz' Hl' Hi' Hg') as (x' & ks' & E' & _ & [Hx' _] & Hcon').
  do 2 eexists. split; [exact E|]. split; [exact E'|]. cbn [fst snd]. intros t Ht.
  pose proof Ea as Ea'. rewrite F1 in Ea'. pose proof Eb as Eb'. rewrite F2 in Eb'.
  destruct (combine_some ts ps j ta pa 0 vzero Hl Ea) as (T1 & P1 & L1).
  destruct (combine_some ts ps (S j) tb pb 0 vzero Hl Eb) as (T2 & P2 & L2).
  destruct (combine_some ts' ps' j' ta pa 0 vzero Hl' Ea') as (T1' & P1' & L1').
  destruct (combine_some ts' ps' (S j') tb pb 0 vzero Hl' Eb') as (T2' & P2' & L2').
  set (ka := Knot pa (fit_velocity ts ps d0 d1 j)). set (kb := Knot pb (fit_velocity ts ps d0 d1 (S j))).
  assert (Va : fit_velocity ts ps d0 d1 j = fit_velocity ts' ps' d0' d1' j').
  { rewrite !fit_velocity_neighbours by auto. apply same_velocity; auto.
    - destruct j as [|i]; [auto|]. cbn [before]. intros X. exfalso. apply nth_error_None in X.
      rewrite combine_length in X. lia.
    - intros _ X. rewrite Eb in X. discriminate. }
  assert (Vb : fit_velocity ts ps d0 d1 (S j) = fit_velocity ts' ps' d0' d1' (S j')).
  { rewrite !fit_velocity_neighbours by auto. apply same_velocity; auto.
    - cbn [before]. rewrite Ea. discriminate.
    - intros _ X. apply H1. apply nth_error_None in X. rewrite combine_length in X. lia. }
  assert (N1 : nth_error (contents x) j = Some (ta, ka)).
  { rewrite Hcon. apply nth_error_combine; [now rewrite (nth_error_nth' ts 0 L1), T1|].
    rewrite fit_knots_nth by exact L1. unfold fit_knot, ka. now rewrite P1. }
  assert (N2 : nth_error (contents x) (S j) = Some (tb, kb)).
  { rewrite Hcon. apply nth_error_combine; [now rewrite (nth_error_nth' ts 0 L2), T2|].
    rewrite fit_knots_nth by exact L2. unfold fit_knot, kb. now rewrite P2. }
  assert (N1' : nth_error (contents x') j' = Some (ta, ka)).
  { rewrite Hcon'. apply nth_error_combine; [now rewrite (nth_error_nth' ts' 0 L1'), T1'|].
    rewrite fit_knots_nth by exact L1'. unfold fit_knot, ka. now rewrite P1', Va. }
  assert (N2' : nth_error (contents x') (S j') = Some (tb, kb)).
  { rewrite Hcon'. apply nth_error_combine; [now rewrite (nth_error_nth' ts' 0 L2'), T2'|].
    rewrite fit_knots_nth by exact L2'. unfold fit_knot, kb. now rewrite P2', Vb. }
  destruct (nth_adjacent _ _ _ _ N1 N2) as (u & v & Ec & _). destruct (nth_adjacent _ _ _ _ N1' N2') as (u' & v' & Ec' & _).
  rewrite (evaluate_segment x u ta ka tb kb v t Hx Ec Ht), (evaluate_segment x' u' ta ka tb kb v' t Hx' Ec' Ht).
  rewrite (velocity_segment x u ta ka tb kb v t Hx Ec Ht), (velocity_segment x' u' ta ka tb kb v' t Hx' Ec' Ht).
  split; [reflexivity|]. split; [reflexivity|]. intros Hlt.
  rewrite (acceleration_segment x u ta ka tb kb v t Hx Ec), (acceleration_segment x' u' ta ka tb kb v' t Hx' Ec') by lra.
  reflexivity.
Qed.

(** The same for SE3, for any exponential and logarithm whatsoever. *)
Lemma se3_same_segment K (x x' : se3_curve R) u u' ta ka tb kb v v' t :
  consistent (h_mgr x) -> consistent (h_mgr x') ->
  contents (h_mgr x) = u ++ (ta, ka) :: (tb, kb) :: v -> contents (h_mgr x') = u' ++ (ta, ka) :: (tb, kb) :: v' ->
  ta <= t < tb ->
  se3_evaluate K x t = se3_evaluate K x' t /\ se3_evaluate_derivative K x t 1 = se3_evaluate_derivative K x' t 1 /\
  se3_evaluate_acceleration x t = se3_evaluate_acceleration x' t.
Proof.
  intros Hx Hx' E E' Ht.
  destruct (bracket_R (h_mgr x) u ta ka tb kb v t Hx E ltac:(lra)) as (Hn & n0 & n1 & Eg & Hb).
  destruct (bracket_R (h_mgr x') u' ta ka tb kb v' t Hx' E' ltac:(lra)) as (Hn' & n0' & n1' & Eg' & Hb').
  destruct Hb as [(B1 & B2 & B3 & B4 & _)|(Y & _)]; [|exfalso; lra].
  destruct Hb' as [(B1' & B2' & B3' & B4' & _)|(Y & _)]; [|exfalso; lra].
  unfold se3_evaluate_derivative, se3_evaluate, se3_evaluate_acceleration. cbn [N.eqb Pos.eqb].
  rewrite (se3_test x t Hn), (se3_test x' t Hn'), Eg, Eg'.
  rewrite B1, B2, B3, B4, B1', B2', B3', B4'. auto.
Qed.

Theorem C71_se3_local : forall K g g' (c c' : se3_curve R) ts ts' ps ps' d0 d1 d0' d1' out out' j j' ta pa tb pb,
  length ts = length ps -> increasing_times ts -> (g + N.of_nat (length ts) < 2 ^ 64)%N ->
  length ts' = length ps' -> increasing_times ts' -> (g' + N.of_nat (length ts') < 2 ^ 64)%N ->
  same_four (combine ts ps) (combine ts' ps') j j' ->
  nth_error (combine ts ps) j = Some (ta, pa) -> nth_error (combine ts ps) (S j) = Some (tb, pb) ->
  (j = 0%nat -> d0 = d0') -> (S (S j) = length ts -> d1 = d1') ->
  exists r r', se3_fit_with_derivatives K g c ts ps d0 d1 out = Ok r /\
    se3_fit_with_derivatives K g' c' ts' ps' d0' d1' out' = Ok r' /\
    let x := snd (fst r) in let x' := snd (fst r') in
    forall t, ta <= t < tb ->
      se3_evaluate K x t = se3_evaluate K x' t /\
      se3_evaluate_derivative K x t 1 = se3_evaluate_derivative K x' t 1 /\
      se3_evaluate_acceleration x t = se3_evaluate_acceleration x' t.
Proof.
  intros K g g' c c' ts ts' ps ps' d0 d1 d0' d1' out out' j j' ta pa tb pb
    Hl Hi Hg Hl' Hi' Hg' (F0 & F1 & F2 & F3) Ea Eb H0 H1.
  destruct (se3_fit_all K g c ts ps d0 d1 out Hl Hi Hg) as (x & ks & E & Hx & _ & Hcon & _).
  destruct (se3_fit_all K g' c' ts' ps' d0' d1' out' Hl' Hi' Hg') as (x' & ks' & E' & Hx' & _ & Hcon' & _).
  do 2 eexists. split; [exact E|]. split; [exact E'|]. cbn [fst snd]. intros t Ht.
  pose proof Ea as Ea'. rewrite F1 in Ea'. pose proof Eb as Eb'. rewrite F2 in Eb'.
  assert (X : forall V D (sl : R -> R -> V -> V -> D) e0 e1 (tt : list R) vv i tx vx, length tt = length vv ->
    nth_error (combine tt vv) i = Some (tx, vx) ->
    nth_error (combine tt (fit_coefficients sl e0 e1 None (combine tt vv))) i =
      Some (tx, (vx, neighbour_velocity sl e0 e1 (combine tt vv) i))).
  { intros V D sl e0 e1 tt vv i tx vx Hlen Ei. apply combine_nth_error.
    - destruct (nth_error vv i) as [y|] eqn:Ey.
      + destruct (nth_error tt i) as [z|] eqn:Ez.
        * rewrite (combine_nth_error _ _ _ _ _ Ez Ey) in Ei. now injection Ei as -> _.
        * apply nth_error_None in Ez. assert (i < length vv)%nat by (apply nth_error_Some; congruence). lia.
      + exfalso. apply nth_error_None in Ey. assert (B : (i < length (combine tt vv))%nat)
          by (apply nth_error_Some; congruence). rewrite combine_length in B. lia.
    - rewrite (fit_nth sl e0 e1 _ None i tx vx Ei). do 2 f_equal. }
  set (ka := (pa, neighbour_velocity (se3_slope K) d0 d1 (combine ts ps) j)).
  set (kb := (pb, neighbour_velocity (se3_slope K) d0 d1 (combine ts ps) (S j))).
  assert (Lb : (S j < length ts)%nat).
  { assert (B : (S j < length (combine ts ps))%nat) by (apply nth_error_Some; congruence). rewrite combine_length in B. lia. }
  assert (N1 : nth_error (contents (h_mgr x)) j = Some (ta, ka)) by (rewrite Hcon; now apply X).
  assert (N2 : nth_error (contents (h_mgr x)) (S j) = Some (tb, kb)) by (rewrite Hcon; now apply X).
  assert (N1' : nth_error (contents (h_mgr x')) j' = Some (ta, ka)).
  { rewrite Hcon', (X _ _ _ _ _ _ _ _ _ _ Hl' Ea'). unfold ka. do 3 f_equal. symmetry. apply same_velocity; auto.
    - destruct j as [|i]; [auto|]. cbn [before]. intros Y. exfalso. apply nth_error_None in Y.
      rewrite combine_length in Y. lia.
    - intros _ Y. rewrite Eb in Y. discriminate. }
  assert (N2' : nth_error (contents (h_mgr x')) (S j') = Some (tb, kb)).
  { rewrite Hcon', (X _ _ _ _ _ _ _ _ _ _ Hl' Eb'). unfold kb. do 3 f_equal. symmetry. apply same_velocity; auto.
    - cbn [before]. rewrite Ea. discriminate.
    - intros _ Y. apply H1. apply nth_error_None in Y. rewrite combine_length in Y. lia. }
  destruct (nth_adjacent _ _ _ _ N1 N2) as (u & v & Ec & _). destruct (nth_adjacent _ _ _ _ N1' N2') as (u' & v' & Ec' & _).
  now apply (se3_same_segment K x x' u u' ta ka tb kb v v').
Qed.

(** *** One point changed *)

(** Facts about the knots of a fitted curve. *)
Lemma fitted_times (x : e3_curve R) ts vs d0 d1 :
  contents x = combine ts (map (fit_knot ts vs d0 d1) (seq 0 (length ts))) -> ts <> [] ->
  get_times x = ts /\ e3_size x = length ts /\
  e3_min_time x = at_knot ts 0 /\ e3_max_time x = at_knot ts (length ts - 1).
Proof.
  intros Hcon Hne.
  assert (Et : get_times x = ts).
  { rewrite <- contents_times, Hcon. apply map_fst_combine. now rewrite fit_knots_length. }
  split; [exact Et|]. split; [|split].
  - unfold e3_size. rewrite contents_size, Hcon, combine_length, fit_knots_length. lia.
  - unfold e3_min_time, min_time, at_knot. rewrite <- Et at 1. unfold get_times. now destruct (nodes x).
  - unfold e3_max_time, at_knot. rewrite <- al_max_spec. unfold al_max. rewrite contents_times, Et.
    clear - Hne. destruct ts as [|t ts _] using rev_ind; [congruence|].
    rewrite app_length, app_nth2 by (simpl; lia). rewrite last_last. simpl.
    replace (length ts + 1 - 1 - length ts)%nat with 0%nat by lia. reflexivity.
Qed.

Lemma fitted_nth (x : e3_curve R) ts vs d0 d1 i :
  contents x = combine ts (map (fit_knot ts vs d0 d1) (seq 0 (length ts))) -> (i < length ts)%nat ->
  nth_error (contents x) i = Some (at_knot ts i, Knot (nth i vs vzero) (fit_velocity ts vs d0 d1 i)).
Proof.
  intros -> L. apply nth_error_combine; [now apply nth_error_nth'|]. now rewrite fit_knots_nth.
Qed.

(** Times and indices. *)
Lemma times_segment ts j t : (j < length ts)%nat -> (1 <= j)%nat -> at_knot ts 0 <= t <= at_knot ts j ->
  exists k, (k < j)%nat /\ at_knot ts k <= t <= at_knot ts (S k).
Proof.
  induction j as [|j IH]; intros L J Ht; [lia|].
  destruct (Rle_lt_dec t (at_knot ts j)) as [Hle|Hgt].
  - destruct j as [|j].
    + exists 0%nat. split; [lia|lra].
    + destruct IH as (k & Hk & Hb); [lia|lia|lra|]. exists k. split; [lia|exact Hb].
  - exists j. split; [lia|lra].
Qed.

Lemma times_le ts j k : increasing_times ts -> (j <= k)%nat -> (k < length ts)%nat -> at_knot ts j <= at_knot ts k.
Proof.
  intros Hi H. induction H as [|k H IH]; intros L; [lra|]. specialize (Hi k L). specialize (IH ltac:(lia)). lra.
Qed.

Lemma times_segment_from ts j t : increasing_times ts -> (S j < length ts)%nat ->
  at_knot ts j <= t <= at_knot ts (length ts - 1) ->
  exists k, (j <= k)%nat /\ (S k < length ts)%nat /\ at_knot ts k <= t <= at_knot ts (S k).
Proof.
  intros Hi L Ht. remember (length ts - S (S j))%nat as d eqn:Hd. revert j L Ht Hd. induction d as [|d IH]; intros j L Ht Hd.
  - exists j. replace (S j) with (length ts - 1)%nat by lia. split; [lia|]. split; [lia|lra].
  - destruct (Rle_lt_dec t (at_knot ts (S j))) as [Hle|Hgt].
    + exists j. split; [lia|]. split; [lia|lra].
    + destruct (IH (S j)) as (k & A & B & C); [lia|lra|lia|]. exists k. split; [lia|]. split; [exact B|lra].
Qed.

(** Changing the point [i] leaves the curve as it is up to the second point before it
    and from the second point after it. *)
Theorem C71_one_point : forall debug g g' (c c' : e3_curve R) ts ps ps' d0 d1 out out' i,
  consistent c -> e3_size c = 0%nat -> consistent c' -> e3_size c' = 0%nat ->
  length ts = length ps -> length ts = length ps' -> increasing_times ts ->
  (g + N.of_nat (length ts) < 2 ^ 64)%N -> (g' + N.of_nat (length ts) < 2 ^ 64)%N ->
  (forall k, k <> i -> nth_error ps k = nth_error ps' k) ->
  exists r r', e3_fit_with_derivatives debug g c ts ps d0 d1 out = Ok r /\
    e3_fit_with_derivatives debug g' c' ts ps' d0 d1 out' = Ok r' /\
    let x := snd (fst r) in let x' := snd (fst r') in
    forall j t, (j < length ts)%nat ->
      ((j + 2 <= i)%nat /\ t <= at_knot ts j) \/ ((i + 2 <= j)%nat /\ at_knot ts j <= t) ->
      e3_evaluate x t = e3_evaluate x' t /\ e3_evaluate_derivative x t 1 = e3_evaluate_derivative x' t 1.
Proof.
  intros debug g g' c c' ts ps ps' d0 d1 out out' i Hc Hz Hc' Hz' Hl Hl' Hi Hg Hg' Hsame.
  destruct (e3_fit_spec debug g c ts ps d0 d1 out Hc Hz Hl Hi Hg) as (x & ks & E & _ & [Hx _] & Hcon).
  destruct (e3_fit_spec debug g' c' ts ps' d0 d1 out' Hc' Hz' Hl' Hi Hg') as (x' & ks' & E' & _ & [Hx' _] & Hcon').
  do 2 eexists. split; [exact E|]. split; [exact E'|]. cbn [fst snd]. intros j t Lj Hjt.
  assert (Hne : ts <> []) by (intros ->; simpl in Lj; lia).
  destruct (fitted_times x ts ps d0 d1 Hcon Hne) as (_ & Sz & Mn & Mx).
  destruct (fitted_times x' ts ps' d0 d1 Hcon' Hne) as (_ & Sz' & Mn' & Mx').
  unfold e3_size, e3_min_time, e3_max_time in *.
  assert (Hcomb : forall k, k <> i -> nth_error (combine ts ps) k = nth_error (combine ts ps') k).
  { intros k Hk. destruct (le_lt_dec (length ts) k) as [Hge|Hlt].
    - rewrite !(proj2 (nth_error_None _ _)); auto; rewrite combine_length; lia.
    - rewrite (nth_error_combine ts ps k (at_knot ts k) (nth k ps vzero)); try (apply nth_error_nth'; lia).
      symmetry. apply nth_error_combine; [now apply nth_error_nth'|]. rewrite <- Hsame by exact Hk.
      apply nth_error_nth'. lia. }
  assert (Hseg : forall k, (S k < length ts)%nat -> (k + 3 <= i \/ i + 2 <= k)%nat ->
    at_knot ts k <= t <= at_knot ts (S k) ->
    e3_evaluate x t = e3_evaluate x' t /\ e3_evaluate_derivative x t 1 = e3_evaluate_derivative x' t 1).
  { intros k Lk Hk Ht.
    destruct (C71_local debug g g' c c' ts ts ps ps' d0 d1 d0 d1 out out' k k
      (at_knot ts k) (nth k ps vzero) (at_knot ts (S k)) (nth (S k) ps vzero)) as (r & r' & Er & Er' & Hr); auto.
    - split; [|split; [|split]]; [destruct k as [|k]; [reflexivity|]; cbn [before]| | |]; apply Hcomb; lia.
    - apply nth_error_combine; apply nth_error_nth'; lia.
    - apply nth_error_combine; apply nth_error_nth'; lia.
    - assert (R1 : r = ((g + N.of_nat (length ts))%N, x, out ++ ks)) by congruence.
      assert (R2 : r' = ((g' + N.of_nat (length ts))%N, x', out' ++ ks')) by congruence. subst r r'.
      cbn [fst snd] in Hr. now destruct (Hr t Ht) as (A & B & _). }
  assert (Hknot : forall k, (k < length ts)%nat -> k <> i -> (k = 0 \/ S k = length ts)%nat -> t = at_knot ts k ->
    e3_evaluate x t = e3_evaluate x' t /\ e3_evaluate_derivative x t 1 = e3_evaluate_derivative x' t 1).
  { intros k Lk Hk Hend ->.
    destruct (knot_values x _ _ Hx (nth_error_In _ _ (fitted_nth x ts ps d0 d1 k Hcon Lk))) as [-> ->].
    destruct (knot_values x' _ _ Hx' (nth_error_In _ _ (fitted_nth x' ts ps' d0 d1 k Hcon' Lk))) as [-> ->].
    cbn [k_pos k_vel]. assert (Ev : fit_velocity ts ps d0 d1 k = fit_velocity ts ps' d0 d1 k).
    { unfold fit_velocity. destruct k as [|k]; [reflexivity|]. destruct Hend as [Hend|Hend]; [discriminate|].
      now rewrite Hend, Nat.eqb_refl. }
    rewrite Ev. split; [|reflexivity]. do 2 f_equal.
    specialize (Hsame k Hk). rewrite !(nth_error_nth' _ vzero) in Hsame by lia. congruence. }
  assert (Hout : (2 <= length ts)%nat -> ~ (at_knot ts 0 <= t <= at_knot ts (length ts - 1)) ->
    e3_evaluate x t = e3_evaluate x' t /\ e3_evaluate_derivative x t 1 = e3_evaluate_derivative x' t 1).
  { intros L2 Ht. destruct (evaluate_outside x t Hx) as (-> & -> & _); [lia|now rewrite Mn, Mx|].
    destruct (evaluate_outside x' t Hx') as (-> & -> & _); [lia|now rewrite Mn', Mx'|]. auto. }
  destruct Hjt as [[Hj Ht]|[Hj Ht]].
  - destruct (Nat.eq_dec (length ts) 1) as [L1|L1].
    + assert (j = 0%nat) by lia. subst j.
      destruct (Rle_lt_dec (at_knot ts 0) t) as [Hle|Hgt].
      * apply (Hknot 0%nat); auto; try lia. lra.
      * assert (C1 : exists tk kk, contents x = [(tk, kk)] /\ tk = at_knot ts 0).
        { destruct ts as [|t0 [|t1 r]]; simpl in L1; try lia. eexists _, _. split; [exact Hcon|reflexivity]. }
        assert (C2 : exists tk kk, contents x' = [(tk, kk)] /\ tk = at_knot ts 0).
        { destruct ts as [|t0 [|t1 r]]; simpl in L1; try lia. eexists _, _. split; [exact Hcon'|reflexivity]. }
        destruct C1 as (tk & kk & C1 & E1). destruct C2 as (tk' & kk' & C2 & E2).
        destruct (proj2 (evaluate_single x tk kk t C1)) as [-> ->]; [lra|].
        destruct (proj2 (evaluate_single x' tk' kk' t C2)) as [-> ->]; [lra|]. auto.
    + destruct (Rle_lt_dec (at_knot ts 0) t) as [Hle|Hgt]; [|apply Hout; [lia|lra]].
      destruct j as [|j]; [apply (Hknot 0%nat); auto; [lia|lra]|].
      destruct (times_segment ts (S j) t Lj ltac:(lia) (conj Hle Ht)) as (k & Hk & Hb).
      apply (Hseg k); auto; lia.
  - destruct (Rle_lt_dec t (at_knot ts (length ts - 1))) as [Hle|Hgt]; [|apply Hout; [lia|lra]].
    destruct (Nat.eq_dec (S j) (length ts)) as [Ej|Ej].
    + assert (Ejn : (length ts - 1)%nat = j) by lia. rewrite Ejn in Hle. apply (Hknot j); auto; [lia|lra].
    + destruct (times_segment_from ts j t Hi ltac:(lia) (conj Ht Hle)) as (k & A & B & C).
      apply (Hseg k); auto. lia.
Qed.

(** ** C72 *)

Lemma hval_reverse ta tb p0 v0 p1 v1 t : ta < tb ->
  hval (- tb) (- ta) p1 (-1 * v1) p0 (-1 * v0) (- t) = hval ta tb p0 v0 p1 v1 t.
Proof. intros. unfold hval. field. lra. Qed.
Lemma hvel_reverse ta tb p0 v0 p1 v1 t : ta < tb ->
  hvel (- tb) (- ta) p1 (-1 * v1) p0 (-1 * v0) (- t) = -1 * hvel ta tb p0 v0 p1 v1 t.
Proof. intros. unfold hvel. field. lra. Qed.
Lemma hacc_reverse ta tb p0 v0 p1 v1 t : ta < tb ->
  hacc (- tb) (- ta) p1 (-1 * v1) p0 (-1 * v0) (- t) = hacc ta tb p0 v0 p1 v1 t.
Proof. intros. unfold hacc. field. lra. Qed.

Lemma coord_scaled a s v : coord a (scaled s v) = s * coord a v.
Proof. now destruct a. Qed.

Lemma nth_reversed (ts : list R) i : (i < length ts)%nat ->
  at_knot (map Ropp (rev ts)) i = - at_knot ts (length ts - 1 - i).
Proof.
  intros L. unfold at_knot.
  rewrite (nth_indep _ 0 (Ropp 0)) by (rewrite map_length, rev_length; exact L).
  rewrite map_nth, rev_nth by exact L. now replace (length ts - S i)%nat with (length ts - 1 - i)%nat by lia.
Qed.

Lemma increasing_reversed ts : increasing_times ts -> increasing_times (map Ropp (rev ts)).
Proof.
  intros Hi i L. rewrite map_length, rev_length in L. rewrite !nth_reversed by lia.
  specialize (Hi (length ts - 1 - S i)%nat ltac:(lia)).
  replace (S (length ts - 1 - S i))%nat with (length ts - 1 - i)%nat in Hi by lia. lra.
Qed.

Lemma fit_velocity_reversed ts (vs : list (vec3 R)) d0 d1 i : length ts = length vs -> (2 <= length ts)%nat ->
  (i < length ts)%nat -> increasing_times ts ->
  fit_velocity (map Ropp (rev ts)) (rev vs) (scaled (-1) d1) (scaled (-1) d0) (length ts - 1 - i) =
  scaled (-1) (fit_velocity ts vs d0 d1 i).
Proof.
  intros Hl H2 L Hi. apply vec3_ext. intros a. rewrite coord_scaled.
  set (n := length ts) in *. destruct i as [|j].
  - unfold fit_velocity. rewrite map_length, rev_length. fold n.
    destruct (n - 1 - 0)%nat as [|k] eqn:Ek; [lia|]. replace (S (S k)) with n by lia.
    rewrite Nat.eqb_refl. apply coord_scaled.
  - unfold fit_velocity at 2. fold n. destruct (Nat.eqb_spec (S (S j)) n) as [E|E].
    + replace (n - 1 - S j)%nat with 0%nat by lia. apply coord_scaled.
    + unfold fit_velocity. rewrite map_length, rev_length. fold n.
      destruct (n - 1 - S j)%nat as [|k] eqn:Ek; [lia|].
      destruct (Nat.eqb_spec (S (S k)) n) as [E2|E2]; [lia|].
      rewrite !coord_slope.
      pose proof (nth_reversed ts k) as T1. pose proof (nth_reversed ts (S (S k))) as T2. unfold at_knot in T1, T2.
      cbn [tzero R_TimeOps] in *. rewrite T1, T2 by (fold n; lia). fold n.
      rewrite !rev_nth by lia. rewrite <- Hl.
      replace (n - 1 - k)%nat with (S (S j)) by lia. replace (n - 1 - S (S k))%nat with j by lia.
      replace (n - S k)%nat with (S (S j)) by lia. replace (n - S (S (S k)))%nat with j by lia.
      pose proof (Hi j ltac:(fold n; lia)) as I1. pose proof (Hi (S j) ltac:(fold n; lia)) as I2.
      unfold at_knot in I1, I2. field. lra.
Qed.

(** The data in reversed order: the curve runs backwards. *)
Theorem C72_reversed : forall debug g g' (c c' : e3_curve R) ts ps d0 d1 out out',
  consistent c -> e3_size c = 0%nat -> consistent c' -> e3_size c' = 0%nat ->
  length ts = length ps -> (2 <= length ts)%nat -> increasing_times ts ->
  (g + N.of_nat (length ts) < 2 ^ 64)%N -> (g' + N.of_nat (length ts) < 2 ^ 64)%N ->
  exists r r', e3_fit_with_derivatives debug g c ts ps d0 d1 out = Ok r /\
    e3_fit_with_derivatives debug g' c' (map Ropp (rev ts)) (rev ps) (scaled (-1) d1) (scaled (-1) d0) out' = Ok r' /\
    let x := snd (fst r) in let x' := snd (fst r') in
    forall t,
      e3_evaluate x' (- t) = e3_evaluate x t /\
      e3_evaluate_derivative x' (- t) 1 = on_value (scaled (-1)) (e3_evaluate_derivative x t 1) /\
      (~ In t ts -> e3_evaluate_derivative x' (- t) 2 = e3_evaluate_derivative x t 2).
Proof.
  intros debug g g' c c' ts ps d0 d1 out out' Hc Hz Hc' Hz' Hl H2 Hi Hg Hg'.
  set (ts' := map Ropp (rev ts)). set (ps' := rev ps).
  assert (Ln : length ts' = length ts) by (unfold ts'; now rewrite map_length, rev_length).
  assert (Lp : length ts' = length ps') by (unfold ps'; rewrite rev_length; lia).
  pose proof (increasing_reversed ts Hi) as Hi'. fold ts' in Hi'.
  destruct (e3_fit_spec debug g c ts ps d0 d1 out Hc Hz Hl Hi Hg) as (x & ks & E & _ & [Hx _] & Hcon).
  destruct (e3_fit_spec debug g' c' ts' ps' (scaled (-1) d1) (scaled (-1) d0) out' Hc' Hz' Lp Hi')
    as (x' & ks' & E' & _ & [Hx' _] & Hcon'); [now rewrite Ln|].
  do 2 eexists. split; [exact E|]. split; [exact E'|]. cbn [fst snd]. intros t.
  assert (Hne : ts <> []) by (intros ->; simpl in H2; lia).
  assert (Hne' : ts' <> []) by (intros X; rewrite X in Ln; simpl in Ln; lia).
  destruct (fitted_times x ts ps d0 d1 Hcon Hne) as (_ & Sz & Mn & Mx).
  destruct (fitted_times x' ts' ps' _ _ Hcon' Hne') as (_ & Sz' & Mn' & Mx'). rewrite Ln in Sz', Mx'.
  unfold e3_size, e3_min_time, e3_max_time in *.
  unfold ts' in Mn', Mx'. rewrite nth_reversed in Mn', Mx' by lia.
  replace (length ts - 1 - 0)%nat with (length ts - 1)%nat in Mn' by lia.
  replace (length ts - 1 - (length ts - 1))%nat with 0%nat in Mx' by lia.
  destruct (Rle_lt_dec (at_knot ts 0) t) as [Hlo|Hlo].
  2:{ destruct (evaluate_outside x t Hx) as (-> & -> & ->); [lia|lra|].
      destruct (evaluate_outside x' (- t) Hx') as (-> & -> & ->); [lia|lra|]. auto. }
  destruct (Rle_lt_dec t (at_knot ts (length ts - 1))) as [Hhi|Hhi].
  2:{ destruct (evaluate_outside x t Hx) as (-> & -> & ->); [lia|lra|].
      destruct (evaluate_outside x' (- t) Hx') as (-> & -> & ->); [lia|lra|]. auto. }
  destruct (times_segment_from ts 0 t Hi ltac:(lia) (conj Hlo Hhi)) as (k & _ & Lk & Ht).
  pose proof (Hi k Lk) as Hlt.
  set (ta := at_knot ts k) in *. set (tb := at_knot ts (S k)) in *.
  set (ka := Knot (nth k ps vzero) (fit_velocity ts ps d0 d1 k)).
  set (kb := Knot (nth (S k) ps vzero) (fit_velocity ts ps d0 d1 (S k))).
  pose proof (fitted_nth x ts ps d0 d1 k Hcon ltac:(lia)) as N1.
  pose proof (fitted_nth x ts ps d0 d1 (S k) Hcon Lk) as N2.
  destruct (nth_adjacent _ _ _ _ N1 N2) as (u & v & Ec & _). fold ta tb ka kb in Ec.
  set (m := (length ts - 1 - S k)%nat).
  set (ra := Knot (nth (S k) ps vzero) (scaled (-1) (fit_velocity ts ps d0 d1 (S k)))).
  set (rb := Knot (nth k ps vzero) (scaled (-1) (fit_velocity ts ps d0 d1 k))).
  assert (N1' : nth_error (contents x') m = Some (- tb, ra)).
  { rewrite (fitted_nth x' ts' ps' _ _ m Hcon') by (unfold m; lia). unfold ra, m, ts', ps'.
    rewrite fit_velocity_reversed by auto. rewrite nth_reversed by lia. rewrite rev_nth by lia.
    replace (length ts - 1 - (length ts - 1 - S k))%nat with (S k) by lia.
    replace (length ps - S (length ts - 1 - S k))%nat with (S k) by lia. reflexivity. }
  assert (N2' : nth_error (contents x') (S m) = Some (- ta, rb)).
  { assert (Em : S m = (length ts - 1 - k)%nat) by (unfold m; lia). rewrite Em.
    rewrite (fitted_nth x' ts' ps' _ _ _ Hcon') by lia. unfold rb, ts', ps'.
    rewrite fit_velocity_reversed by (auto; lia). rewrite nth_reversed by lia. rewrite rev_nth by lia.
    replace (length ts - 1 - (length ts - 1 - k))%nat with k by lia.
    replace (length ps - S (length ts - 1 - k))%nat with k by lia. reflexivity. }
  destruct (nth_adjacent _ _ _ _ N1' N2') as (u' & v' & Ec' & _).
  rewrite (evaluate_segment x u ta ka tb kb v t Hx Ec Ht), (velocity_segment x u ta ka tb kb v t Hx Ec Ht).
  rewrite (evaluate_segment x' u' (- tb) ra (- ta) rb v' (- t) Hx' Ec') by lra.
  rewrite (velocity_segment x' u' (- tb) ra (- ta) rb v' (- t) Hx' Ec') by lra.
  split; [|split].
  - do 2 f_equal. apply vec3_ext. intros a. rewrite !coord_value. unfold ra, rb, ka, kb. cbn [k_pos k_vel].
    rewrite !coord_scaled. now apply hval_reverse.
  - cbn [on_value]. do 2 f_equal. apply vec3_ext. intros a. rewrite coord_scaled, !coord_velocity.
    unfold ra, rb, ka, kb. cbn [k_pos k_vel]. rewrite !coord_scaled. now apply hvel_reverse.
  - intros Hni. assert (T1 : t <> ta) by (intros ->; apply Hni; apply nth_In; lia).
    assert (T2 : t <> tb) by (intros ->; apply Hni; apply nth_In; exact Lk).
    rewrite (acceleration_segment x u ta ka tb kb v t Hx Ec) by lra.
    rewrite (acceleration_segment x' u' (- tb) ra (- ta) rb v' (- t) Hx' Ec') by lra.
    do 2 f_equal. apply vec3_ext. intros a. rewrite !coord_acceleration. unfold ra, rb, ka, kb. cbn [k_pos k_vel].
    rewrite !coord_scaled. now apply hacc_reverse.
Qed.

(** ** C73 *)

(** The four control values of a segment of length [h]. *)
Definition control_values (h p0 v0 p1 v1 : R) : list R := [p0; p0 + v0 * h / 3; p1 - v1 * h / 3; p1].

Lemma fraction_bounds ta tb t : ta < tb -> ta <= t <= tb -> 0 <= (t - ta) / (tb - ta) <= 1.
Proof.
  intros Hl Ht. split.
  - apply Rmult_le_pos; [lra|]. left. apply Rinv_0_lt_compat. lra.
  - apply (Rmult_le_reg_r (tb - ta)); [lra|]. unfold Rdiv. rewrite Rmult_assoc, Rinv_l; lra.
Qed.

(** A product of factors which are not negative. *)
Ltac factors_pos := repeat match goal with |- 0 <= _ * _ => apply Rmult_le_pos end; lra.

Lemma hval_hull lo hi ta tb p0 v0 p1 v1 t : ta < tb -> ta <= t <= tb ->
  Forall (fun y => lo <= y <= hi) (control_values (tb - ta) p0 v0 p1 v1) ->
  lo <= hval ta tb p0 v0 p1 v1 t <= hi.
Proof.
  intros Hl Ht Hf. pose proof (fraction_bounds ta tb t Hl Ht) as Ha. unfold hval.
  set (a := (t - ta) / (tb - ta)) in *. set (h := tb - ta) in *.
  unfold control_values in Hf. inversion_clear Hf as [|? ? B0 Hf1]. inversion_clear Hf1 as [|? ? B1 Hf2].
  inversion_clear Hf2 as [|? ? B2 Hf3]. inversion_clear Hf3 as [|? ? B3 _].
  set (q1 := p0 + v0 * h / 3) in *. set (q2 := p1 - v1 * h / 3) in *.
  assert (E1 : v0 * h = 3 * (q1 - p0)) by (unfold q1; field).
  assert (E2 : v1 * h = 3 * (p1 - q2)) by (unfold q2; field).
  replace (p0 * (2 * (a * a * a) - 3 * (a * a) + 1) + p1 * (-2 * (a * a * a) + 3 * (a * a)) +
    v0 * ((a * a * a - 2 * (a * a) + a) * h) + v1 * ((a * a * a - a * a) * h))
    with (p0 * (2 * (a * a * a) - 3 * (a * a) + 1) + p1 * (-2 * (a * a * a) + 3 * (a * a)) +
    (v0 * h) * (a * a * a - 2 * (a * a) + a) + (v1 * h) * (a * a * a - a * a)) by ring.
  rewrite E1, E2.
  pose (w0 := (1 - a) * (1 - a) * (1 - a)). pose (w1 := 3 * (a * (1 - a) * (1 - a))).
  pose (w2 := 3 * (a * a * (1 - a))). pose (w3 := a * a * a).
  assert (P0 : 0 <= w0) by (unfold w0; factors_pos).
  assert (P1 : 0 <= w1) by (unfold w1; factors_pos).
  assert (P2 : 0 <= w2) by (unfold w2; factors_pos).
  assert (P3 : 0 <= w3) by (unfold w3; factors_pos).
  replace (p0 * (2 * (a * a * a) - 3 * (a * a) + 1) + p1 * (-2 * (a * a * a) + 3 * (a * a)) +
    3 * (q1 - p0) * (a * a * a - 2 * (a * a) + a) + 3 * (p1 - q2) * (a * a * a - a * a))
    with (w0 * p0 + w1 * q1 + w2 * q2 + w3 * p1) by (unfold w0, w1, w2, w3; ring).
  assert (Hs : w0 + w1 + w2 + w3 = 1) by (unfold w0, w1, w2, w3; ring).
  clearbody w0 w1 w2 w3 q1 q2. split.
  - replace lo with (w0 * lo + w1 * lo + w2 * lo + w3 * lo).
    2:{ replace (w0 * lo + w1 * lo + w2 * lo + w3 * lo) with ((w0 + w1 + w2 + w3) * lo) by ring. rewrite Hs. ring. }
    pose proof (Rmult_le_compat_l w0 lo p0 P0 (proj1 B0)). pose proof (Rmult_le_compat_l w1 lo q1 P1 (proj1 B1)).
    pose proof (Rmult_le_compat_l w2 lo q2 P2 (proj1 B2)). pose proof (Rmult_le_compat_l w3 lo p1 P3 (proj1 B3)). lra.
  - replace hi with (w0 * hi + w1 * hi + w2 * hi + w3 * hi).
    2:{ replace (w0 * hi + w1 * hi + w2 * hi + w3 * hi) with ((w0 + w1 + w2 + w3) * hi) by ring. rewrite Hs. ring. }
    pose proof (Rmult_le_compat_l w0 p0 hi P0 (proj2 B0)). pose proof (Rmult_le_compat_l w1 q1 hi P1 (proj2 B1)).
    pose proof (Rmult_le_compat_l w2 q2 hi P2 (proj2 B2)). pose proof (Rmult_le_compat_l w3 p1 hi P3 (proj2 B3)). lra.
Qed.

(** Between two knots every coordinate stays within the range of its four control values. *)
Theorem C73_hull : forall (c : e3_curve R) ta ka tb kb a lo hi t,
  consistent c -> adjacent (contents c) (ta, ka) (tb, kb) -> ta <= t <= tb ->
  Forall (fun y => lo <= y <= hi)
    (control_values (tb - ta) (coord a (k_pos ka)) (coord a (k_vel ka)) (coord a (k_pos kb)) (coord a (k_vel kb))) ->
  exists v, e3_evaluate c t = Ok (Some v) /\ lo <= coord a v <= hi.
Proof.
  intros c ta ka tb kb a lo hi t Hc (u & v & E) Ht Hf. pose proof (consistent_incr _ _ _ _ _ _ _ Hc E) as Hlt.
  eexists. split; [exact (evaluate_segment c u ta ka tb kb v t Hc E Ht)|]. rewrite coord_value. now apply hval_hull.
Qed.

Lemma hvel_nonneg ta tb p0 v0 p1 v1 t : ta < tb -> ta <= t <= tb ->
  0 <= v0 <= 3 * (p1 - p0) / (tb - ta) -> 0 <= v1 <= 3 * (p1 - p0) / (tb - ta) ->
  0 <= hvel ta tb p0 v0 p1 v1 t.
Proof.
  intros Hl Ht H0 H1. pose proof (fraction_bounds ta tb t Hl Ht) as Ha. unfold hvel.
  set (a := (t - ta) / (tb - ta)) in *. set (s := (p1 - p0) / (tb - ta)).
  replace (3 * (p1 - p0) / (tb - ta)) with (3 * s) in H0, H1 by (unfold s; field; lra).
  replace (p0 * (6 * (a * a - a) * (1 / (tb - ta))) + v0 * (3 * (a * a) - 4 * a + 1) +
    p1 * (6 * (a - a * a) * (1 / (tb - ta))) + v1 * (3 * (a * a) - 2 * a))
    with (6 * s * (a * (1 - a)) + v0 * (3 * (a * a) - 4 * a + 1) + v1 * (3 * (a * a) - 2 * a))
    by (unfold s; field; lra).
  clearbody s a. destruct (Req_dec s 0) as [Es|Es].
  - assert (v0 = 0) by lra. assert (v1 = 0) by lra. subst. lra.
  - assert (Hs : 0 < s) by lra.
    set (f := v0 / (3 * s)). set (k := v1 / (3 * s)).
    assert (Ef : v0 = 3 * s * f) by (unfold f; field; lra).
    assert (Ek : v1 = 3 * s * k) by (unfold k; field; lra).
    assert (Bf : 0 <= f <= 1).
    { split; apply (Rmult_le_reg_l (3 * s)); try lra. }
    assert (Bk : 0 <= k <= 1).
    { split; apply (Rmult_le_reg_l (3 * s)); try lra. }
    rewrite Ef, Ek. clearbody f k.
    replace (6 * s * (a * (1 - a)) + 3 * s * f * (3 * (a * a) - 4 * a + 1) + 3 * s * k * (3 * (a * a) - 2 * a))
      with (3 * s * (f * k * ((1 - 2 * a) * (1 - 2 * a)) + f * (1 - k) * ((1 - a) * (1 - a)) +
                     (1 - f) * k * (a * a) + (1 - f) * (1 - k) * (2 * (a * (1 - a))))) by ring.
    apply Rmult_le_pos; [lra|].
    assert (0 <= f * k * ((1 - 2 * a) * (1 - 2 * a))).
    { apply Rmult_le_pos; [apply Rmult_le_pos; lra|]. apply Rle_0_sqr. }
    assert (0 <= f * (1 - k) * ((1 - a) * (1 - a))) by (factors_pos).
    assert (0 <= (1 - f) * k * (a * a)) by (factors_pos).
    assert (0 <= (1 - f) * (1 - k) * (2 * (a * (1 - a)))) by (factors_pos).
    lra.
Qed.

(** A coordinate does not decrease between two knots if both stored velocities lie
    between zero and three times the mean velocity of the segment. *)
Theorem C73_monotone : forall (c : e3_curve R) ta ka tb kb a s t,
  consistent c -> adjacent (contents c) (ta, ka) (tb, kb) -> ta <= s -> s <= t -> t <= tb ->
  let mean := (coord a (k_pos kb) - coord a (k_pos ka)) / (tb - ta) in
  0 <= coord a (k_vel ka) <= 3 * mean -> 0 <= coord a (k_vel kb) <= 3 * mean ->
  exists v w, e3_evaluate c s = Ok (Some v) /\ e3_evaluate c t = Ok (Some w) /\ coord a v <= coord a w.
Proof.
  intros c ta ka tb kb a s t Hc (u & v & E) H1 H2 H3 mean Ha Hb. pose proof (consistent_incr _ _ _ _ _ _ _ Hc E) as Hlt.
  do 2 eexists. split; [apply (evaluate_segment c u ta ka tb kb v s Hc E); lra|].
  split; [apply (evaluate_segment c u ta ka tb kb v t Hc E); lra|]. rewrite !coord_value.
  destruct (Req_dec s t) as [->|Hne]; [lra|].
  set (p0 := coord a (k_pos ka)) in *. set (v0 := coord a (k_vel ka)) in *.
  set (p1 := coord a (k_pos kb)) in *. set (v1 := coord a (k_vel kb)) in *.
  destruct (MVT_cor2 (hval ta tb p0 v0 p1 v1) (hvel ta tb p0 v0 p1 v1) s t) as (z & Ez & Bz); [lra| |].
  { intros z _. now apply hval_derive. }
  assert (Hz : 0 <= hvel ta tb p0 v0 p1 v1 z).
  { apply hvel_nonneg; [exact Hlt|lra| |]; unfold Rdiv in *; unfold mean in *; lra. }
  assert (0 <= hvel ta tb p0 v0 p1 v1 z * (t - s)) by (apply Rmult_le_pos; lra). lra.
Qed.

(** Positions within [lo, hi] and velocities of at most [d] over the length of the segment. *)
Lemma hval_overshoot lo hi d ta tb p0 v0 p1 v1 t : ta < tb -> ta <= t <= tb ->
  lo <= p0 <= hi -> lo <= p1 <= hi -> Rabs v0 * (tb - ta) <= d -> Rabs v1 * (tb - ta) <= d ->
  lo - d / 4 <= hval ta tb p0 v0 p1 v1 t <= hi + d / 4.
Proof.
  intros Hl Ht H0 H1 D0 D1. pose proof (fraction_bounds ta tb t Hl Ht) as Ha. unfold hval.
  set (a := (t - ta) / (tb - ta)) in *. set (h := tb - ta) in *. assert (Hh : 0 < h) by (unfold h; lra).
  assert (B0 : - d <= v0 * h <= d).
  { unfold Rabs in D0. destruct (Rcase_abs v0) as [C|C]; nra. }
  assert (B1 : - d <= v1 * h <= d).
  { unfold Rabs in D1. destruct (Rcase_abs v1) as [C|C]; nra. }
  set (x := v0 * h) in *. set (y := v1 * h) in *.
  replace (p0 * (2 * (a * a * a) - 3 * (a * a) + 1) + p1 * (-2 * (a * a * a) + 3 * (a * a)) +
    v0 * ((a * a * a - 2 * (a * a) + a) * h) + v1 * ((a * a * a - a * a) * h))
    with (p0 * ((1 - a) * (1 - a) * (1 + 2 * a)) + p1 * (a * a * (3 - 2 * a)) +
          (x * (a * (1 - a) * (1 - a)) - y * (a * a * (1 - a)))) by (unfold x, y; ring).
  clearbody x y a h.
  set (w0 := (1 - a) * (1 - a) * (1 + 2 * a)). set (w1 := a * a * (3 - 2 * a)).
  set (z0 := a * (1 - a) * (1 - a)). set (z1 := a * a * (1 - a)).
  assert (P0 : 0 <= w0) by (unfold w0; factors_pos).
  assert (P1 : 0 <= w1) by (unfold w1; factors_pos).
  assert (Q0 : 0 <= z0) by (unfold z0; factors_pos).
  assert (Q1 : 0 <= z1) by (unfold z1; factors_pos).
  assert (Hw : w0 + w1 = 1) by (unfold w0, w1; ring).
  assert (Hz : z0 + z1 <= / 4).
  { replace (z0 + z1) with (/ 4 - (a - / 2) * (a - / 2)) by (unfold z0, z1; field).
    pose proof (Rle_0_sqr (a - / 2)) as X. unfold Rsqr in X. lra. }
  clearbody w0 w1 z0 z1. assert (Hd : 0 <= d) by lra.
  assert (X1 : x * z0 - y * z1 <= d * z0 + d * z1).
  { assert (x * z0 <= d * z0) by (apply Rmult_le_compat_r; lra).
    assert (- d * z1 <= y * z1) by (apply Rmult_le_compat_r; lra). lra. }
  assert (X2 : - (d * z0 + d * z1) <= x * z0 - y * z1).
  { assert (- d * z0 <= x * z0) by (apply Rmult_le_compat_r; lra).
    assert (y * z1 <= d * z1) by (apply Rmult_le_compat_r; lra). lra. }
  assert (X3 : d * z0 + d * z1 <= d / 4).
  { replace (d * z0 + d * z1) with (d * (z0 + z1)) by ring. unfold Rdiv. now apply Rmult_le_compat_l. }
  split.
  - assert (w0 * lo <= p0 * w0) by (rewrite (Rmult_comm p0); apply Rmult_le_compat_l; lra).
    assert (w1 * lo <= p1 * w1) by (rewrite (Rmult_comm p1); apply Rmult_le_compat_l; lra).
    replace lo with (w0 * lo + w1 * lo) by (rewrite <- Rmult_plus_distr_r, Hw; ring). lra.
  - assert (p0 * w0 <= w0 * hi) by (rewrite (Rmult_comm p0); apply Rmult_le_compat_l; lra).
    assert (p1 * w1 <= w1 * hi) by (rewrite (Rmult_comm p1); apply Rmult_le_compat_l; lra).
    replace hi with (w0 * hi + w1 * hi) by (rewrite <- Rmult_plus_distr_r, Hw; ring). lra.
Qed.

Lemma slope_bound lo hi p q T h e : lo <= p <= hi -> lo <= q <= hi -> 0 < h -> 0 < e -> e * h <= T ->
  Rabs ((q - p) / T) * h <= (hi - lo) / e.
Proof.
  intros Hp Hq Hh He HT. assert (HT0 : 0 < T) by nra.
  assert (B : Rabs (q - p) <= hi - lo) by (apply Rabs_le; lra).
  unfold Rdiv at 1. rewrite Rabs_mult, (Rabs_right (/ T)) by (apply Rle_ge; left; now apply Rinv_0_lt_compat).
  apply (Rmult_le_reg_r T); [exact HT0|].
  replace (Rabs (q - p) * / T * h * T) with (Rabs (q - p) * h) by (field; lra).
  pose proof (Rabs_pos (q - p)) as P0.
  apply Rle_trans with ((hi - lo) * h); [apply Rmult_le_compat_r; lra|].
  replace ((hi - lo) / e * T) with ((hi - lo) * (T * / e)) by (field; lra).
  apply Rmult_le_compat_l; [lra|]. apply (Rmult_le_reg_r e); [exact He|].
  rewrite Rmult_assoc, Rinv_l by lra. lra.
Qed.

(** The bound for a fit with zero end velocities: [e] is a lower bound for the ratio of
    the distance of the neighbours of a knot and the length of a segment at the knot. *)
Lemma fit_overshoot e debug g (c : e3_curve R) ts ps out a lo hi : 0 < e ->
  (forall i, (S (S i) < length ts)%nat ->
     e * (at_knot ts (S i) - at_knot ts i) <= at_knot ts (S (S i)) - at_knot ts i /\
     e * (at_knot ts (S (S i)) - at_knot ts (S i)) <= at_knot ts (S (S i)) - at_knot ts i) ->
  consistent c -> e3_size c = 0%nat -> length ts = length ps -> (2 <= length ts)%nat -> increasing_times ts ->
  (g + N.of_nat (length ts) < 2 ^ 64)%N ->
  (forall p, In p ps -> lo <= coord a p <= hi) ->
  exists g' c' out', e3_fit debug g c ts ps out = Ok (g', c', out') /\
    e3_min_time c' = at_knot ts 0 /\ e3_max_time c' = at_knot ts (length ts - 1) /\
    forall t, e3_min_time c' <= t <= e3_max_time c' ->
      exists v, e3_evaluate c' t = Ok (Some v) /\
        lo - (hi - lo) / e / 4 <= coord a v <= hi + (hi - lo) / e / 4.
Proof.
  intros He Hratio Hc Hz Hl H2 Hi Hg Hr. unfold e3_fit.
  destruct (e3_fit_spec debug g c ts ps vzero vzero out Hc Hz Hl Hi Hg) as (x & ks & E & _ & [Hx _] & Hcon).
  do 3 eexists. split; [exact E|].
  assert (Hne : ts <> []) by (intros ->; simpl in H2; lia).
  destruct (fitted_times x ts ps vzero vzero Hcon Hne) as (_ & _ & Mn & Mx).
  split; [exact Mn|]. split; [exact Mx|]. rewrite Mn, Mx. intros t Hrange.
  destruct (times_segment_from ts 0 t Hi ltac:(lia) Hrange) as (k & _ & Lk & Ht).
  pose proof (Hi k Lk) as Hlt.
  destruct (nth_adjacent _ _ _ _ (fitted_nth x ts ps vzero vzero k Hcon ltac:(lia))
    (fitted_nth x ts ps vzero vzero (S k) Hcon Lk)) as (u & v & Ec & _).
  eexists. split; [exact (evaluate_segment x u _ _ _ _ v t Hx Ec Ht)|]. rewrite coord_value. cbn [k_pos k_vel].
  assert (Hp : forall i, (i < length ts)%nat -> lo <= coord a (nth i ps vzero) <= hi).
  { intros i L. apply Hr. apply nth_In. lia. }
  assert (Hw : 0 <= (hi - lo) / e).
  { specialize (Hp 0%nat ltac:(lia)). apply Rmult_le_pos; [lra|]. left. now apply Rinv_0_lt_compat. }
  assert (Hv : forall i h, (i < length ts)%nat -> 0 < h ->
    (forall j, i = S j -> (S i < length ts)%nat -> e * h <= at_knot ts (S i) - at_knot ts j) ->
    Rabs (coord a (fit_velocity ts ps vzero vzero i)) * h <= (hi - lo) / e).
  { intros i h L Hh Hb. unfold fit_velocity. destruct i as [|j].
    - replace (coord a vzero) with 0 by (now destruct a). rewrite Rabs_R0. lra.
    - destruct (Nat.eqb_spec (S (S j)) (length ts)) as [En|En].
      + replace (coord a vzero) with 0 by (now destruct a). rewrite Rabs_R0. lra.
      + rewrite coord_slope. apply slope_bound; auto; try (apply Hp; lia).
        apply (Hb j); [reflexivity|lia]. }
  apply hval_overshoot; auto; try (apply Hp; lia).
  - apply Hv; [lia|lra|]. intros j -> L3. apply (Hratio j); lia.
  - apply Hv; [lia|lra|]. intros j [= <-] L3. apply (Hratio k); lia.
Qed.

(** However the times are chosen the curve leaves the range of its points by at most a
    quarter of the size of the range. *)
Theorem C73_overshoot : forall debug g (c : e3_curve R) ts ps out a lo hi,
  consistent c -> e3_size c = 0%nat -> length ts = length ps -> (2 <= length ts)%nat -> increasing_times ts ->
  (g + N.of_nat (length ts) < 2 ^ 64)%N ->
  (forall p, In p ps -> lo <= coord a p <= hi) ->
  exists g' c' out', e3_fit debug g c ts ps out = Ok (g', c', out') /\
    e3_min_time c' = at_knot ts 0 /\ e3_max_time c' = at_knot ts (length ts - 1) /\
    forall t, e3_min_time c' <= t <= e3_max_time c' ->
      exists v, e3_evaluate c' t = Ok (Some v) /\ lo - (hi - lo) / 4 <= coord a v <= hi + (hi - lo) / 4.
Proof.
  intros debug g c ts ps out a lo hi Hc Hz Hl H2 Hi Hg Hr.
  replace ((hi - lo) / 4) with ((hi - lo) / 1 / 4) by field.
  apply fit_overshoot; auto; [lra|]. intros i L.
  pose proof (Hi i ltac:(lia)). pose proof (Hi (S i) L). lra.
Qed.

(** At equidistant times an eighth of the range. *)
Theorem C73_overshoot_equidistant : forall debug g (c : e3_curve R) h ts ps out a lo hi,
  consistent c -> e3_size c = 0%nat -> length ts = length ps -> (2 <= length ts)%nat -> 0 < h -> equidistant h ts ->
  (g + N.of_nat (length ts) < 2 ^ 64)%N ->
  (forall p, In p ps -> lo <= coord a p <= hi) ->
  exists g' c' out', e3_fit debug g c ts ps out = Ok (g', c', out') /\
    e3_min_time c' = at_knot ts 0 /\ e3_max_time c' = at_knot ts (length ts - 1) /\
    forall t, e3_min_time c' <= t <= e3_max_time c' ->
      exists v, e3_evaluate c' t = Ok (Some v) /\ lo - (hi - lo) / 8 <= coord a v <= hi + (hi - lo) / 8.
Proof.
  intros debug g c h ts ps out a lo hi Hc Hz Hl H2 Hh He Hg Hr.
  replace ((hi - lo) / 8) with ((hi - lo) / 2 / 4) by field.
  apply fit_overshoot; auto; [lra| |].
  - intros i L. pose proof (He i ltac:(lia)). pose proof (He (S i) L). lra.
  - intros i L. rewrite (He i L). lra.
Qed.

(** The eighth is reached: points lo, hi, hi, lo; so a fitted curve does not stay within
    the range of its points. *)
Theorem C73_within_range_refuted : forall lo hi, lo < hi ->
  exists g' (c' : e3_curve R) out', e3_fit true 0 e3_new [0; 1; 2; 3]
    [V3 lo 0 0; V3 hi 0 0; V3 hi 0 0; V3 lo 0 0] [] = Ok (g', c', out') /\
  exists v, e3_evaluate c' (3 / 2) = Ok (Some v) /\ coord AX v = hi + (hi - lo) / 8 /\ hi < coord AX v.
Proof.
  intros lo hi Hlh. unfold e3_fit.
  set (ps := [V3 lo 0 0; V3 hi 0 0; V3 hi 0 0; V3 lo 0 0]).
  destruct (e3_fit_spec true 0 e3_new ts4 ps vzero vzero [] consistent_empty eq_refl eq_refl ts4_increasing eq_refl)
    as (x & ks & E & _ & [Hx _] & Hcon).
  do 3 eexists. split; [exact E|].
  destruct (nth_adjacent _ _ _ _ (fitted_nth x ts4 ps vzero vzero 1 Hcon ltac:(simpl; lia))
    (fitted_nth x ts4 ps vzero vzero 2 Hcon ltac:(simpl; lia))) as (u & v & Ec & _).
  eexists. split; [apply (evaluate_segment x u _ _ _ _ v (3 / 2) Hx Ec); unfold at_knot; simpl; lra|].
  rewrite coord_value. cbn [k_pos k_vel].
  assert (X : hval (at_knot ts4 1) (at_knot ts4 2) (coord AX (nth 1 ps vzero))
    (coord AX (fit_velocity ts4 ps vzero vzero 1)) (coord AX (nth 2 ps vzero))
    (coord AX (fit_velocity ts4 ps vzero vzero 2)) (3 / 2) = hi + (hi - lo) / 8).
  { rewrite !coord_fit_velocity. unfold catmull_rom, at_knot, hval. simpl. field. }
  rewrite X. lra.
Qed.

(** ** Instances of the hypotheses *)

Example C36_se3_example : exists c : se3_curve R, consistent (h_mgr c) /\ (2 <= se3_size c)%nat /\
  exists ta ka tb kb, adjacent (contents (h_mgr c)) (ta, ka) (tb, kb).
Proof.
  destruct (se3_fit_all std_kindr 0 (se3_new : se3_curve R) ts4 vs4 (Twist (V3 0 0 0) (V3 0 0 0)) (Twist (V3 0 0 0) (V3 0 0 0)) []
    eq_refl ts4_increasing eq_refl) as (x & ks & _ & Hx & _ & Hcon & _).
  exists x. split; [exact Hx|]. cbn [ts4 vs4 combine fit_coefficients] in Hcon. split.
  - unfold se3_size. rewrite contents_size, Hcon. simpl. lia.
  - rewrite Hcon. do 4 eexists. exists []. eexists. reflexivity.
Qed.

(** C71: the points with the last one changed; the first segment is the same. *)
Example C71_example : exists j ta pa tb pb ps', length ts4 = length ps' /\ ps' <> ps4 /\
  same_four (combine ts4 ps4) (combine ts4 ps') j j /\
  nth_error (combine ts4 ps4) j = Some (ta, pa) /\ nth_error (combine ts4 ps4) (S j) = Some (tb, pb) /\
  (forall k, k <> 3%nat -> nth_error ps4 k = nth_error ps' k).
Proof.
  exists 0%nat, 0, (V3 1 0 0), 1, (V3 0 1 0), [V3 1 0 0; V3 0 1 0; V3 (-1) 0 0; V3 5 5 5].
  split; [reflexivity|]. split.
  { intros X. injection X as X _ _. lra. }
  split; [repeat split|]. split; [reflexivity|]. split; [reflexivity|].
  intros [|[|[|[|k]]]] Hk; auto. contradiction.
Qed.

(** C72: two fits. *)
Example C72_example : exists r r', e3_fit_with_derivatives true 0 (e3_new : e3_curve R) ts4 ps4 (V3 0 0 7) (V3 7 0 0) [] = Ok r /\
  e3_fit_with_derivatives true 0 (e3_new : e3_curve R) (map Ropp (rev ts4)) (rev ps4) (scaled (-1) (V3 7 0 0))
    (scaled (-1) (V3 0 0 7)) [] = Ok r' /\
  e3_evaluate (snd (fst r')) (- 1) = e3_evaluate (snd (fst r)) 1.
Proof.
  destruct (C72_reversed true 0 0 e3_new e3_new ts4 ps4 (V3 0 0 7) (V3 7 0 0) [] [] consistent_empty eq_refl
    consistent_empty eq_refl eq_refl ltac:(simpl; lia) ts4_increasing eq_refl eq_refl) as (r & r' & E & E' & H).
  exists r, r'. split; [exact E|]. split; [exact E'|]. apply H.
Qed.

(** C73: points between -1 and 1; a segment with velocities in the monotone range. *)
Example C73_example : (forall p, In p ps4 -> -1 <= coord AX p <= 1) /\ equidistant 1 ts4 /\
  Forall (fun y => 0 <= y <= 1) (control_values 1 0 (1/2) 1 0) /\
  exists c : e3_curve R, consistent c /\ adjacent (contents c) (0, Knot (V3 0 0 0) (V3 0 0 0)) (1, Knot (V3 1 0 0) (V3 0 0 0)).
Proof.
  split.
  { intros p [<-|[<-|[<-|[<-|[]]]]]; simpl; lra. }
  split; [exact ts4_equidistant|]. split; [unfold control_values; repeat constructor; lra|].
  destruct (e3_fit_spec true 0 e3_new [0; 1] [V3 0 0 0; V3 1 0 0] vzero vzero [] consistent_empty eq_refl eq_refl)
    as (x & ks & _ & _ & [Hx _] & Hcon).
  { intros [|i] L; unfold at_knot; simpl in *; [lra|lia]. } { reflexivity. }
  exists x. split; [exact Hx|]. rewrite Hcon. exists [], []. reflexivity.
Qed.
