(** * C39, C41, C57: binary64 arithmetic *)

From Coq Require Import List Bool Arith NArith ZArith Reals Lra Lia.
From Flocq Require Import Core IEEE754.BinarySingleNaN.
From Verif Require Import Base TimeOrder TimeB64 KeyGen Manager ManagerSpec
  SamplingProofs Num NumB64 HermiteE3 HermiteE3Proofs HermiteB64.
Import ListNotations.

(** ** C41 *)

(** At its two ends a segment returns the stored positions. *)
Theorem C41_segment_ends : forall (ta tb : b64) (ka kb : knot b64),
  is_finite ta = true -> is_finite tb = true -> nltb ta tb = true ->
  is_finite (nsub tb ta) = true -> finite_knot ka -> finite_knot kb ->
  same_vec (e3_segment_value ta tb ka kb ta) (k_pos ka) /\
  same_vec (e3_segment_value ta tb ka kb tb) (k_pos kb).
Proof.
  intros ta tb ka kb Fa Fb Hlt Hd Ka Kb. apply finite_val in Fa, Fb.
  apply (ltb_val _ _ _ _ Fa Fb) in Hlt.
  split.
  - apply (segment_ends ta tb _ _ ka kb ta Fa Fb Hlt Hd Ka Kb). exact Fa.
  - apply (segment_ends ta tb _ _ ka kb tb Fa Fb Hlt Hd Ka Kb). exact Fb.
Qed.

(** The value of a curve at the time of a coefficient is the position stored there. *)
Theorem C41_curve_at_knots : forall (c : e3_curve b64) (t : b64) (k : knot b64) (s : b64),
  consistent c -> finite_curve c -> bounded_segments c -> In (t, k) (contents c) -> neqb s t = true ->
  exists v, e3_evaluate c s = Ok (Some v) /\ same_vec v (k_pos k).
Proof.
  intros c t k s Hc Hf Hb Hi Hs. pose proof (Hf _ _ Hi) as [Ft Fk].
  pose proof (eqb_val _ _ _ (finite_val _ Ft) Hs) as Vs.
  assert (Same : same_vec (k_pos k) (k_pos k)).
  { destruct Fk as [(X & Y & Z) _]. repeat split; (eapply val_eqb; apply finite_val; assumption). }
  unfold e3_evaluate.
  destruct (knot_lookup c t k s Hc Hf Hi Hs) as
    [[E _]|(u & ta & ka & tb & kb & r & n0 & n1 & E & -> & <- & <- & <- & <- & Hlt & Hor)].
  - unfold contents in E. unfold first_coefficient, max_time, last_node, min_time.
    destruct (nodes c) as [|n [|? ?]]; try discriminate. injection E as E1 E2. cbn [rev app].
    rewrite E1, E2, (val_eqb t s _ (finite_val _ Ft) Vs). cbn [andb bind]. eauto.
  - destruct (Hf (n_time n0) (n_coef n0)) as [F0 K0]; [rewrite E, in_app_iff; simpl; auto|].
    destruct (Hf (n_time n1) (n_coef n1)) as [F1 K1]; [rewrite E, in_app_iff; simpl; auto|].
    specialize (Hb _ _ _ _ _ _ E).
    destruct (segment_ends _ _ _ _ (n_coef n0) (n_coef n1) s (finite_val _ F0) (finite_val _ F1) Hlt Hb K0 K1) as [P Q].
    rewrite (ends_differ c s Hc); [| |intros; eapply Hf; eassumption].
    + eexists. split; [reflexivity|]. destruct Hor as [Hor|Hor]; injection Hor as -> ->; auto.
    + apply (f_equal (@length _)) in E. unfold contents in E. rewrite map_length, app_length in E.
      unfold size. rewrite E. simpl. lia.
Qed.

(** After a fit the curve goes exactly through the points. *)
Theorem C41_fit_through_points : forall debug g (c : e3_curve b64) (ts : list b64) (ps : list (vec3 b64)) d0 d1 out,
  consistent c -> e3_size c = 0%nat -> length ts = length ps -> climbing ts ->
  (g + N.of_nat (length ts) < key_mod)%N ->
  exists g' c' ks, e3_fit_with_derivatives debug g c ts ps d0 d1 out = Ok (g', c', ks) /\
    e3_size c' = length ts /\
    (finite_curve c' -> bounded_segments c' -> forall i t p, nth_error ts i = Some t -> nth_error ps i = Some p ->
     exists v, e3_evaluate c' t = Ok (Some v) /\ same_vec v p).
Proof.
  intros debug g c ts ps d0 d1 out Hc Hz Hl Hcl Hg.
  destruct (e3_fit_b64 debug g c ts ps d0 d1 out Hc Hz Hl Hcl Hg) as (c' & ks & E & Hc' & Ec).
  exists (g + N.of_nat (length ts))%N, c', (out ++ ks). split; [exact E|]. split.
  { unfold e3_size, size. pose proof (f_equal (@length _) Ec) as L. unfold contents in L.
    rewrite map_length, combine_length, map_length, seq_length in L. lia. }
  intros Hf Hb i t p Et Ep.
  assert (Li : (i < length ts)%nat) by (apply nth_error_Some; congruence).
  assert (Hi : In (t, fit_knot ts ps d0 d1 i) (contents c')).
  { rewrite Ec. apply (nth_error_In _ i). apply nth_error_combine; auto. now rewrite fit_knots_nth. }
  assert (Fk := proj1 (Hf _ _ Hi)).
  destruct (C41_curve_at_knots c' t _ t Hc' Hf Hb Hi) as (v & Ev & Sv).
  { eapply val_eqb; apply finite_val; exact Fk. }
  exists v. split; [exact Ev|]. unfold fit_knot in Sv. cbn [k_pos] in Sv. now rewrite (nth_error_nth _ _ _ Ep) in Sv.
Qed.

(** ** Examples of binary64 curves *)

Definition dbl (z : Z) : b64 := nofZ z.
Definition dvec (x y z : Z) : vec3 b64 := V3 (dbl x) (dbl y) (dbl z).

Lemma two_knots (c : e3_curve b64) ta ka tb kb : contents c = [(ta, ka); (tb, kb)] ->
  is_finite ta = true -> is_finite tb = true -> finite_knot ka -> finite_knot kb -> finite_curve c.
Proof.
  intros E Fa Fb Ka Kb t k Hi. rewrite E in Hi. destruct Hi as [Hi|[Hi|[]]]; injection Hi as <- <-; auto.
Qed.

Lemma two_split {A} (x y : A) u a b r : [x; y] = u ++ a :: b :: r -> a = x /\ b = y.
Proof.
  intros E. pose proof (f_equal (@length _) E) as L. rewrite app_length in L. simpl in L.
  destruct u; [|simpl in L; lia]. injection E as <- <- _. auto.
Qed.

Lemma two_curve (ta tb : b64) (ka kb : knot b64) : nltb ta tb = true ->
  let c : e3_curve b64 := Mgr [Node 0 ta 1%N ka; Node 1 tb 2%N kb] [(1%N, 0%nat); (2%N, 1%nat)] 2 in
  consistent c /\ contents c = [(ta, ka); (tb, kb)].
Proof.
  intros Hlt c. split; [|reflexivity]. split.
  - unfold get_times. simpl. repeat constructor. exact Hlt.
  - simpl. repeat constructor; simpl; lia.
  - simpl. repeat constructor.
  - unfold get_keys. simpl. repeat constructor; simpl; intuition discriminate.
  - simpl. apply Permutation.Permutation_refl.
Qed.

(** The hypotheses hold for a curve from time 0 to 3; it may be evaluated at -0. *)
Example C41_example : exists (c : e3_curve b64) (t : b64) (k : knot b64) (s : b64),
  consistent c /\ finite_curve c /\ bounded_segments c /\ invertible_segments c /\
  In (t, k) (contents c) /\ neqb s t = true /\ s <> t.
Proof.
  set (ka := Knot (dvec 1 2 3) (dvec 4 5 6)). set (kb := Knot (dvec 7 8 9) (dvec (-1) 0 1)).
  destruct (two_curve (dbl 0) (dbl 3) ka kb) as [Hc Ec]; [reflexivity|].
  eexists _, (dbl 0), ka, (B754_zero true). split; [exact Hc|].
  split; [apply (two_knots _ _ _ _ _ Ec); vm_compute; intuition|].
  split; [|split; [|split; [rewrite Ec; simpl; auto|split; [reflexivity|intros X; discriminate X]]]].
  - intros u ta ka' tb kb' r E. rewrite Ec in E. apply two_split in E as [[= -> ->] [= -> ->]]. reflexivity.
  - intros u ta ka' tb kb' r E. rewrite Ec in E. apply two_split in E as [[= -> ->] [= -> ->]]. reflexivity.
Qed.

(** Without the bound on the length of the segments the claim is false: from -2^1023
    to 2^1023 the time difference overflows and the value at the first knot is NaN. *)
Definition huge : b64 := @SF2B 53 1024 (SpecFloat.S754_finite false (2 ^ 52) 971) eq_refl.

Theorem C41_overflow_refuted : exists (c : e3_curve b64) (t : b64) (k : knot b64) (v : vec3 b64),
  consistent c /\ finite_curve c /\ In (t, k) (contents c) /\
  e3_evaluate c t = Ok (Some v) /\ nan_vec v.
Proof.
  set (k := Knot (dvec 0 0 0) (dvec 0 0 0)).
  destruct (two_curve (nopp huge) huge k k) as [Hc Ec]; [reflexivity|].
  eexists _, (nopp huge), k, _. split; [exact Hc|].
  split; [apply (two_knots _ _ _ _ _ Ec); vm_compute; intuition|].
  split; [rewrite Ec; simpl; auto|]. split; [reflexivity|]. vm_compute. auto.
Qed.

(** ** C57 *)

(** The velocity at the time of a coefficient is the velocity stored there. *)
Theorem C57_curve_velocities : forall (c : e3_curve b64) (t : b64) (k : knot b64) (s : b64),
  consistent c -> finite_curve c -> bounded_segments c -> invertible_segments c ->
  In (t, k) (contents c) -> neqb s t = true ->
  exists v, e3_evaluate_derivative c s 1 = Ok (Some v) /\ same_vec v (k_vel k).
Proof.
  intros c t k s Hc Hf Hb Hv Hi Hs. pose proof (Hf _ _ Hi) as [Ft Fk].
  pose proof (eqb_val _ _ _ (finite_val _ Ft) Hs) as Vs.
  assert (Same : same_vec (k_vel k) (k_vel k)).
  { destruct Fk as [_ (X & Y & Z)]. repeat split; (eapply val_eqb; apply finite_val; assumption). }
  unfold e3_evaluate_derivative. cbn [N.eqb Pos.eqb].
  destruct (knot_lookup c t k s Hc Hf Hi Hs) as
    [[E _]|(u & ta & ka & tb & kb & r & n0 & n1 & E & -> & <- & <- & <- & <- & Hlt & Hor)].
  - unfold contents in E. unfold first_coefficient, max_time, last_node, min_time.
    destruct (nodes c) as [|n [|? ?]]; try discriminate. injection E as E1 E2. cbn [rev app].
    rewrite E1, E2, (val_eqb t s _ (finite_val _ Ft) Vs). cbn [andb bind]. eauto.
  - destruct (Hf (n_time n0) (n_coef n0)) as [F0 K0]; [rewrite E, in_app_iff; simpl; auto|].
    destruct (Hf (n_time n1) (n_coef n1)) as [F1 K1]; [rewrite E, in_app_iff; simpl; auto|].
    specialize (Hb _ _ _ _ _ _ E). specialize (Hv _ _ _ _ _ _ E).
    destruct (segment_end_velocities _ _ _ _ (n_coef n0) (n_coef n1) s (finite_val _ F0) (finite_val _ F1) Hlt Hb Hv K0 K1) as [P Q].
    rewrite (ends_differ c s Hc); [| |intros; eapply Hf; eassumption].
    + eexists. split; [reflexivity|]. destruct Hor as [Hor|Hor]; injection Hor as -> ->; auto.
    + apply (f_equal (@length _)) in E. unfold contents in E. rewrite map_length, app_length in E.
      unfold size. rewrite E. simpl. lia.
Qed.

(** Knots closer than about 2^-1024 make the inverse of the duration infinite: the
    position at the knot is still right but the velocity is NaN. *)
Definition tiny : b64 := @SF2B 53 1024 (SpecFloat.S754_finite false 1 (-1074)) eq_refl.

Theorem C57_short_segment_refuted : exists (c : e3_curve b64) (t : b64) (k : knot b64) (v : vec3 b64),
  consistent c /\ finite_curve c /\ bounded_segments c /\ In (t, k) (contents c) /\
  e3_evaluate_derivative c t 1 = Ok (Some v) /\ nan_vec v.
Proof.
  set (k := Knot (dvec 1 1 1) (dvec 2 3 4)).
  destruct (two_curve (dbl 0) tiny k k) as [Hc Ec]; [reflexivity|].
  eexists _, (dbl 0), k, _. split; [exact Hc|].
  split; [apply (two_knots _ _ _ _ _ Ec); vm_compute; intuition|]. split.
  { intros u ta ka' tb kb' r E. rewrite Ec in E. apply two_split in E as [[= -> ->] [= -> ->]]. reflexivity. }
  split; [rewrite Ec; simpl; auto|]. split; [reflexivity|]. vm_compute. auto.
Qed.

(** ** C39 *)

(** Fitting a periodic curve to three finite points fills the curve with NaN: every
    evaluation between the first and the last time succeeds and returns NaN. *)
Theorem C39_three_points_nan : forall debug g (c : e3_curve b64) (t0 t1 t2 : b64) (p0 p1 p2 : vec3 b64) out,
  consistent c -> e3_size c = 0%nat -> climbing [t0; t1; t2] -> finite_vec p1 -> (g + 3 < key_mod)%N ->
  exists g' c' ks, e3_fit_periodic debug g c [t0; t1; t2] [p0; p1; p2] out = Ok (g', c', ks) /\
    forall s : b64, nleb t0 s = true -> nleb s t2 = true ->
    exists v, e3_evaluate c' s = Ok (Some v) /\ nan_vec v.
Proof.
  intros debug g c t0 t1 t2 p0 p1 p2 out Hc Hz Hcl Hp Hg.
  change (e3_fit_periodic debug g c [t0; t1; t2] [p0; p1; p2] out) with
    (let d := e3_slope t1 t1 p1 p1 in e3_fit_with_derivatives debug g c [t0; t1; t2] [p0; p1; p2] d d out).
  cbv zeta. set (d := e3_slope t1 t1 p1 p1).
  destruct (e3_fit_b64 debug g c [t0; t1; t2] [p0; p1; p2] d d out Hc Hz eq_refl Hcl Hg) as (c' & ks & E & Hc' & Ec).
  eexists _, c', _. split; [exact E|]. intros s L0 L2.
  destruct Hcl as (F0 & _ & F1 & _ & F2 & _ & _).
  assert (Nd : nan_vec d) by now apply slope_nan. clearbody d. simpl in Ec.
  assert (Ft : forall t k, In (t, k) (contents c') -> is_finite t = true).
  { rewrite Ec. intros t k [[= <- _]|[[= <- _]|[[= <- _]|[]]]]; auto. }
  destruct (lookup_range c' [t0; t1; t2] s Hc') as (u & ta & ka & tb & kb & r & n0 & n1 & E' & Eg & Ka & Kb).
  - rewrite Ec. reflexivity.
  - intros t [<-|[<-|[<-|[]]]]; auto.
  - simpl. lia.
  - clear - L0 F0. now destruct s, t0 as [| | |[]].
  - simpl. unfold b64_ltb. clear - L0 F0. cbn in L0. unfold Bleb, SpecFloat.SFleb in L0.
    change (SpecFloat.SFcompare (B2SF t0) (B2SF s)) with (Bcompare t0 s) in L0.
    rewrite Bcompare_swap. destruct (Bcompare t0 s) as [[]|]; auto; discriminate.
  - simpl. unfold b64_ltb. clear - L2 F2. cbn in L2. unfold Bleb, SpecFloat.SFleb in L2.
    change (SpecFloat.SFcompare (B2SF s) (B2SF t2)) with (Bcompare s t2) in L2.
    rewrite Bcompare_swap. destruct (Bcompare s t2) as [[]|]; auto; discriminate.
  - unfold e3_evaluate. rewrite (ends_differ c' s Hc'), Eg; [| |exact Ft].
    + eexists. split; [reflexivity|]. apply segment_nan. rewrite Ka, Kb. rewrite Ec in E'.
      pose proof (f_equal (@length _) E') as L. rewrite app_length in L. simpl in L.
      destruct u as [|? [|? u]]; [| |simpl in L; lia].
      * left. injection E' as _ <- _ _ _. exact Nd.
      * right. injection E' as _ _ _ _ <- _. exact Nd.
    + unfold size. apply (f_equal (@length _)) in Ec. unfold contents in Ec. rewrite map_length in Ec. rewrite Ec. simpl. lia.
Qed.

Example C39_three_points_nan_example :
  climbing [dbl 0; dbl 1; dbl 2] /\ finite_vec (dvec 1 2 3) /\ consistent (@e3_new b64) /\
  e3_size (@e3_new b64) = 0%nat.
Proof.
  split; [vm_compute; intuition|]. split; [vm_compute; auto|]. split; [|reflexivity]. split; constructor.
Qed.

Print Assumptions C39_three_points_nan.
Print Assumptions C41_segment_ends.
Print Assumptions C41_curve_at_knots.
Print Assumptions C41_fit_through_points.
Print Assumptions C41_overflow_refuted.
Print Assumptions C57_curve_velocities.
Print Assumptions C57_short_segment_refuted.
