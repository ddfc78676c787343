(** * The cubic Hermite E3 curve in binary64 arithmetic *)

From Coq Require Import List Bool Arith NArith ZArith Reals Lra Lia Sorting.Sorted.
From Flocq Require Import Core IEEE754.BinarySingleNaN.
From Verif Require Import Base TimeOrder TimeB64 KeyGen Manager ManagerSpec ManagerProofs ManagerProofs2
  ManagerMap SamplingSpec SamplingProofs Num NumB64 HermiteE3 HermiteE3Proofs.
Import ListNotations.

(** ** Vocabulary *)

Definition each (P : b64 -> Prop) (v : vec3 b64) : Prop := P (vx v) /\ P (vy v) /\ P (vz v).
Definition finite_vec : vec3 b64 -> Prop := each (fun x => is_finite x = true).
Definition nan_vec : vec3 b64 -> Prop := each (fun x => is_nan x = true).
Definition finite_knot (k : knot b64) : Prop := finite_vec (k_pos k) /\ finite_vec (k_vel k).

(** Equal as numbers: C++ [==] in every component. *)
Definition same_vec (v w : vec3 b64) : Prop :=
  neqb (vx v) (vx w) = true /\ neqb (vy v) (vy w) = true /\ neqb (vz v) (vz w) = true.

(** Times and coefficients are finite. *)
Definition finite_curve (c : e3_curve b64) : Prop :=
  forall t k, In (t, k) (contents c) -> is_finite t = true /\ finite_knot k.

(** No overflow in the length of a segment. *)
Definition bounded_segments (c : e3_curve b64) : Prop :=
  forall u ta ka tb kb r, contents c = u ++ (ta, ka) :: (tb, kb) :: r -> is_finite (nsub tb ta) = true.

(** No overflow in the inverse of the length of a segment (2^-1022 is long enough). *)
Definition invertible_segments (c : e3_curve b64) : Prop :=
  forall u ta ka tb kb r, contents c = u ++ (ta, ka) :: (tb, kb) :: r ->
  is_finite (ndiv (nofZ 1) (nsub tb ta)) = true.

(** ** One coordinate of a segment *)

Local Open Scope num_scope.

Definition blend (alpha dt pa va pb vb : b64) : b64 :=
  let alpha2 := alpha * alpha in
  let alpha3 := alpha2 * alpha in
  let beta0 := #2 * alpha3 - #3 * alpha2 + #1 in
  let beta1 := (- #2) * alpha3 + #3 * alpha2 in
  let beta2 := alpha3 - #2 * alpha2 + alpha in
  let beta3 := alpha3 - alpha2 in
  pa * beta0 + pb * beta1 + va * (beta2 * dt) + vb * (beta3 * dt).

Lemma segment_blend (ta tb : b64) (ka kb : knot b64) (t : b64) :
  let b := blend ((t - ta) / (tb - ta)) (tb - ta) in
  e3_segment_value ta tb ka kb t =
  V3 (b (vx (k_pos ka)) (vx (k_vel ka)) (vx (k_pos kb)) (vx (k_vel kb)))
     (b (vy (k_pos ka)) (vy (k_vel ka)) (vy (k_pos kb)) (vy (k_vel kb)))
     (b (vz (k_pos ka)) (vz (k_vel ka)) (vz (k_pos kb)) (vz (k_vel kb))).
Proof. reflexivity. Qed.

Definition dblend (alpha inv pa va pb vb : b64) : b64 :=
  let alpha2 := alpha * alpha in
  let gamma0 := #6 * (alpha2 - alpha) in
  let gamma1 := #3 * alpha2 - #4 * alpha + #1 in
  let gamma2 := #6 * (alpha - alpha2) in
  let gamma3 := #3 * alpha2 - #2 * alpha in
  pa * (gamma0 * inv) + va * gamma1 + pb * (gamma2 * inv) + vb * gamma3.

Lemma segment_dblend (ta tb : b64) (ka kb : knot b64) (t : b64) :
  let b := dblend ((t - ta) / (tb - ta)) (#1 / (tb - ta)) in
  e3_segment_velocity ta tb ka kb t =
  V3 (b (vx (k_pos ka)) (vx (k_vel ka)) (vx (k_pos kb)) (vx (k_vel kb)))
     (b (vy (k_pos ka)) (vy (k_vel ka)) (vy (k_pos kb)) (vy (k_vel kb)))
     (b (vz (k_pos ka)) (vz (k_vel ka)) (vz (k_pos kb)) (vz (k_vel kb))).
Proof. reflexivity. Qed.

Lemma val_eq_Z x a b : val x (IZR a) -> a = b -> val x (IZR b).
Proof. now intros ? ->. Qed.

Lemma val_opp_int x a : val x (IZR a) -> val (- x) (IZR (- a)).
Proof. rewrite opp_IZR. apply val_opp. Qed.

(** Evaluation of small integer expressions. *)
Ltac vcalc :=
  lazymatch goal with
  | |- val (nadd _ _) _ => eapply val_add_int; [vcalc|vcalc|vm_compute; discriminate]
  | |- val (nsub _ _) _ => eapply val_sub_int; [vcalc|vcalc|vm_compute; discriminate]
  | |- val (nmul _ _) _ => eapply val_mul_int; [vcalc|vcalc|vm_compute; discriminate]
  | |- val (nopp _) _ => eapply val_opp_int; vcalc
  | |- val (nofZ ?z) _ => apply (val_int z); vm_compute; discriminate
  | |- _ => eassumption
  end.
Ltac veval := eapply val_eq_Z; [vcalc|reflexivity].

(** The blending coefficients at the ends of a segment, [z] = 0 or 1. *)
Lemma blend_coefs alpha (z : Z) : val alpha (IZR z) -> (z = 0 \/ z = 1)%Z ->
  let alpha2 := alpha * alpha in
  let alpha3 := alpha2 * alpha in
  (val (#2 * alpha3 - #3 * alpha2 + #1) (IZR (1 - z)) /\ val ((- #2) * alpha3 + #3 * alpha2) (IZR z) /\
   val (alpha3 - #2 * alpha2 + alpha) 0 /\ val (alpha3 - alpha2) 0) /\
  (val (#6 * (alpha2 - alpha)) 0 /\ val (#3 * alpha2 - #4 * alpha + #1) (IZR (1 - z)) /\
   val (#6 * (alpha - alpha2)) 0 /\ val (#3 * alpha2 - #2 * alpha) (IZR z)).
Proof.
  intros Ha Hz alpha2 alpha3.
  destruct Hz as [-> | ->].
  - assert (A2 : val alpha2 (IZR 0)) by (unfold alpha2; veval).
    assert (A3 : val alpha3 (IZR 0)) by (unfold alpha3; veval).
    clearbody alpha2 alpha3. split; (split; [|split; [|split]]); veval.
  - assert (A2 : val alpha2 (IZR 1)) by (unfold alpha2; veval).
    assert (A3 : val alpha3 (IZR 1)) by (unfold alpha3; veval).
    clearbody alpha2 alpha3. split; (split; [|split; [|split]]); veval.
Qed.

Lemma blend_start alpha dt pa va pb vb d a b c e : val alpha 0 -> val dt d ->
  val pa a -> val va b -> val pb c -> val vb e -> val (blend alpha dt pa va pb vb) a.
Proof.
  intros Ha Hd Hpa Hva Hpb Hvb. destruct (blend_coefs alpha 0 Ha (or_introl eq_refl)) as [(B0 & B1 & B2 & B3) _].
  unfold blend. eapply val_add_0_r; [eapply val_add_0_r; [eapply val_add_0_r|]|].
  - eapply val_mul_1_r; eassumption.
  - eapply val_mul_0_r; eassumption.
  - eapply val_mul_0_r; [eassumption|]. eapply val_mul_0_l; eassumption.
  - eapply val_mul_0_r; [eassumption|]. eapply val_mul_0_l; eassumption.
Qed.

Lemma blend_end alpha dt pa va pb vb d a b c e : val alpha 1 -> val dt d ->
  val pa a -> val va b -> val pb c -> val vb e -> val (blend alpha dt pa va pb vb) c.
Proof.
  intros Ha Hd Hpa Hva Hpb Hvb. destruct (blend_coefs alpha 1 Ha (or_intror eq_refl)) as [(B0 & B1 & B2 & B3) _].
  unfold blend. eapply val_add_0_r; [eapply val_add_0_r; [eapply val_add_0_l|]|].
  - eapply val_mul_0_r; eassumption.
  - eapply val_mul_1_r; eassumption.
  - eapply val_mul_0_r; [eassumption|]. eapply val_mul_0_l; eassumption.
  - eapply val_mul_0_r; [eassumption|]. eapply val_mul_0_l; eassumption.
Qed.

Lemma dblend_start alpha inv pa va pb vb d a b c e : val alpha 0 -> val inv d ->
  val pa a -> val va b -> val pb c -> val vb e -> val (dblend alpha inv pa va pb vb) b.
Proof.
  intros Ha Hd Hpa Hva Hpb Hvb. destruct (blend_coefs alpha 0 Ha (or_introl eq_refl)) as [_ (B0 & B1 & B2 & B3)].
  unfold dblend. eapply val_add_0_r; [eapply val_add_0_r; [eapply val_add_0_l|]|].
  - eapply val_mul_0_r; [eassumption|]. eapply val_mul_0_l; eassumption.
  - eapply val_mul_1_r; eassumption.
  - eapply val_mul_0_r; [eassumption|]. eapply val_mul_0_l; eassumption.
  - eapply val_mul_0_r; eassumption.
Qed.

Lemma dblend_end alpha inv pa va pb vb d a b c e : val alpha 1 -> val inv d ->
  val pa a -> val va b -> val pb c -> val vb e -> val (dblend alpha inv pa va pb vb) e.
Proof.
  intros Ha Hd Hpa Hva Hpb Hvb. destruct (blend_coefs alpha 1 Ha (or_intror eq_refl)) as [_ (B0 & B1 & B2 & B3)].
  unfold dblend. eapply val_add_0_l; [eapply val_add_0_r; [eapply val_add_0_l|]|].
  - eapply val_mul_0_r; [eassumption|]. eapply val_mul_0_l; eassumption.
  - eapply val_mul_0_r; eassumption.
  - eapply val_mul_0_r; [eassumption|]. eapply val_mul_0_l; eassumption.
  - eapply val_mul_1_r; eassumption.
Qed.

(** The parameter at the two ends. *)
Lemma alpha_ends ta tb a b t : val ta a -> val tb b -> (a < b)%R -> is_finite (tb - ta) = true ->
  (val t a -> val ((t - ta) / (tb - ta)) 0) /\ (val t b -> val ((t - ta) / (tb - ta)) 1).
Proof.
  intros Ha Hb Hlt Hf. destruct (val_sub_pos _ _ _ _ Hb Ha Hlt Hf) as (d & Hd & Hp).
  split; intros Ht.
  - eapply val_div_0; [|eapply val_sub_same; eassumption|exact Hd]. lra.
  - eapply (val_div_same _ _ d); [lra| |exact Hd].
    eapply val_sub_cong; [exact Hb|exact Ht|exact Ha|exact Hd].
Qed.

Lemma finite_each v : finite_vec v ->
  exists x y z, val (vx v) x /\ val (vy v) y /\ val (vz v) z.
Proof. intros (X & Y & Z). eexists _, _, _. repeat split; eassumption. Qed.

Lemma segment_ends ta tb a b ka kb t : val ta a -> val tb b -> (a < b)%R -> is_finite (tb - ta) = true ->
  finite_knot ka -> finite_knot kb ->
  (val t a -> same_vec (e3_segment_value ta tb ka kb t) (k_pos ka)) /\
  (val t b -> same_vec (e3_segment_value ta tb ka kb t) (k_pos kb)).
Proof.
  intros Ha Hb Hlt Hf [Pa Va] [Pb Vb].
  destruct (alpha_ends ta tb a b t Ha Hb Hlt Hf) as [A0 A1]. apply finite_val in Hf.
  apply finite_each in Pa as (a1 & a2 & a3 & Pa1 & Pa2 & Pa3). apply finite_each in Va as (b1 & b2 & b3 & Va1 & Va2 & Va3).
  apply finite_each in Pb as (c1 & c2 & c3 & Pb1 & Pb2 & Pb3). apply finite_each in Vb as (d1 & d2 & d3 & Vb1 & Vb2 & Vb3).
  rewrite segment_blend. split; intros Ht; unfold same_vec; cbn [vx vy vz].
  - specialize (A0 Ht). repeat split; (eapply val_eqb; [eapply blend_start; eassumption|eassumption]).
  - specialize (A1 Ht). repeat split; (eapply val_eqb; [eapply blend_end; eassumption|eassumption]).
Qed.

Lemma segment_end_velocities ta tb a b ka kb t : val ta a -> val tb b -> (a < b)%R ->
  is_finite (tb - ta) = true -> is_finite (#1 / (tb - ta)) = true -> finite_knot ka -> finite_knot kb ->
  (val t a -> same_vec (e3_segment_velocity ta tb ka kb t) (k_vel ka)) /\
  (val t b -> same_vec (e3_segment_velocity ta tb ka kb t) (k_vel kb)).
Proof.
  intros Ha Hb Hlt Hf Hi [Pa Va] [Pb Vb].
  destruct (alpha_ends ta tb a b t Ha Hb Hlt Hf) as [A0 A1]. apply finite_val in Hi.
  apply finite_each in Pa as (a1 & a2 & a3 & Pa1 & Pa2 & Pa3). apply finite_each in Va as (b1 & b2 & b3 & Va1 & Va2 & Va3).
  apply finite_each in Pb as (c1 & c2 & c3 & Pb1 & Pb2 & Pb3). apply finite_each in Vb as (d1 & d2 & d3 & Vb1 & Vb2 & Vb3).
  rewrite segment_dblend. split; intros Ht; unfold same_vec; cbn [vx vy vz].
  - specialize (A0 Ht). repeat split; (eapply val_eqb; [eapply dblend_start; eassumption|eassumption]).
  - specialize (A1 Ht). repeat split; (eapply val_eqb; [eapply dblend_end; eassumption|eassumption]).
Qed.

(** ** Look-up in a curve with finite times *)

Local Close Scope num_scope.

Section Lookup.
Context {T C : Type} `{TimeLaws T}.

(** At the time of a coefficient the bracket has that coefficient as one of its ends. *)
Lemma bracket_knot (m : mgr T C) n t : consistent m -> In n (nodes m) -> teq (n_time n) t = true ->
  (nodes m = [n] /\ get_coefficients_at m t = None) \/
  exists a n0 n1 b, nodes m = a ++ n0 :: n1 :: b /\ get_coefficients_at m t = Some (n0, n1) /\
    tlt (n_time n0) (n_time n1) = true /\ (n = n0 \/ n = n1).
Proof.
  intros Hc Hi Ht. pose proof (cons_sorted _ Hc) as Hs.
  destruct (get_coefficients_at m t) as [[n0 n1]|] eqn:E.
  - right. destruct (get_at_some m t n0 n1 Hc E) as (a & b & En & H0t & H1t).
    exists a, n0, n1, b. repeat split; auto.
    + rewrite En in Hs. apply sorted_split in Hs as [_ Hb]. now inversion Hb.
    + assert (I0 : In n0 (nodes m)) by (rewrite En, in_app_iff; simpl; auto).
      assert (I1 : In n1 (nodes m)) by (rewrite En, in_app_iff; simpl; auto).
      rewrite En in Hi. apply in_app_iff in Hi as [Hi|[->|[->|Hi]]]; auto.
      * rewrite En in Hs. apply sorted_split in Hs as [Ha _]. rewrite Forall_forall in Ha.
        specialize (Ha _ Hi). rewrite (tlt_teq_l _ _ _ Ht) in Ha. rewrite ?tle_def in H0t. rewrite Ha in H0t. discriminate.
      * rewrite En in Hs. change (n0 :: n1 :: b) with ([n0] ++ n1 :: b) in Hs. rewrite app_assoc in Hs.
        apply sorted_split in Hs as [_ Hb]. rewrite Forall_forall in Hb.
        specialize (Hb _ Hi). rewrite (tlt_teq_r _ _ _ Ht) in Hb.
        destruct H1t as [H1t|[-> _]]; [|destruct Hi]. apply tlt_asym in Hb. congruence.
  - left. split; auto. pose proof (get_at_domain m t Hc) as D.
    destruct (nodes m) as [|n0 [|n1 l]] eqn:En.
    + destruct Hi.
    + destruct Hi as [->|[]]. reflexivity.
    + exfalso. destruct D as [_ D]. destruct D as [r D]; [|congruence].
      split; [unfold size; rewrite En; simpl; lia|]. rewrite <- En in Hi. split.
      * rewrite <- (tle_teq_r _ _ _ Ht). now apply min_time_bound.
      * rewrite <- (tle_teq_l _ _ _ Ht). now apply max_time_bound.
Qed.
End Lookup.

Definition raw (t : b64_time) : b64 := proj1_sig t.

Lemma raw_num (a : b64_time) : tnum (raw a) = tnum a.
Proof. destruct a as [x Hx]. cbn. now rewrite Hx. Qed.

Lemma raw_lt (a b : b64_time) : tlt (raw a) (raw b) = tlt a b.
Proof. reflexivity. Qed.

Lemma finite_not_nan (x : b64) : is_finite x = true -> is_nan x = false.
Proof. now destruct x. Qed.

Lemma finite_lift (c : e3_curve b64) : (forall t k, In (t, k) (contents c) -> is_finite t = true) ->
  exists m : mgr b64_time (knot b64), map_mgr raw m = c.
Proof.
  intros Hf. apply (lift_mgr (fun x : b64 => is_nan x = false)). apply Forall_forall. intros n Hn.
  apply finite_not_nan. apply (Hf _ (n_coef n)). unfold contents. now apply (in_map (fun n => (n_time n, n_coef n))) in Hn.
Qed.

Lemma b64_teq (x y : b64_time) a b : val (raw x) a -> val (raw y) b -> (teq x y = true <-> a = b).
Proof.
  intros Hx Hy. rewrite teq_spec. cbn [tlt b64_TimeOps].
  pose proof (ltb_val _ _ _ _ Hx Hy) as L. pose proof (ltb_val _ _ _ _ Hy Hx) as L'.
  rewrite <- !not_true_iff_false, L, L'. lra.
Qed.

(** Knots of a finite curve and the segments around them. *)
Lemma knot_lookup (c : e3_curve b64) t k s : consistent c -> finite_curve c -> In (t, k) (contents c) ->
  neqb s t = true ->
  (contents c = [(t, k)] /\ get_coefficients_at c s = None) \/
  exists u ta ka tb kb r n0 n1, contents c = u ++ (ta, ka) :: (tb, kb) :: r /\
    get_coefficients_at c s = Some (n0, n1) /\ n_time n0 = ta /\ n_coef n0 = ka /\ n_time n1 = tb /\ n_coef n1 = kb /\
    (B2R ta < B2R tb)%R /\ ((t, k) = (ta, ka) \/ (t, k) = (tb, kb)).
Proof.
  intros Hc Hf Hi Hs. destruct (finite_lift c) as [m Em]; [intros; eapply Hf; eassumption|].
  assert (Ft : val t (B2R t)) by (apply finite_val; eapply Hf; eassumption).
  pose proof (eqb_val _ _ _ Ft Hs) as Fs. pose proof (val_nan _ _ Fs) as Ns.
  assert (Hcm : consistent m) by (rewrite <- Em in Hc; now apply map_consistent in Hc).
  assert (Hn : exists n, In n (nodes m) /\ raw (n_time n) = t /\ n_coef n = k).
  { rewrite <- Em in Hi. rewrite map_contents in Hi. apply in_map_iff in Hi as ([t' k'] & E & Hi).
    unfold contents in Hi. apply in_map_iff in Hi as (n & E' & Hi). exists n. split; auto.
    injection E' as <- <-. injection E as <- <-. auto. }
  destruct Hn as (n & In_n & Et & Ek). set (s' := exist (fun x : b64 => is_nan x = false) s Ns : b64_time).
  assert (T : teq (n_time n) s' = true) by (apply (b64_teq _ _ (B2R t) (B2R t)); [now rewrite Et|exact Fs|reflexivity]).
  change s with (raw s'). rewrite <- Em. unfold e3_curve in *.
  rewrite (map_get_at _ raw_lt raw_num eq_refl).
  destruct (bracket_knot m n s' Hcm In_n T) as [[En ->]|(a & n0 & n1 & b & En & -> & Hlt & Hor)].
  - left. split; auto. rewrite map_contents. unfold contents. rewrite En.
    cbn [map fst snd]. now rewrite Et, Ek.
  - right. exists (contents (map_mgr raw (Mgr a [] 0))), (raw (n_time n0)), (n_coef n0),
      (raw (n_time n1)), (n_coef n1), (contents (map_mgr raw (Mgr b [] 0))),
      (map_node raw n0), (map_node raw n1).
    split.
    { rewrite map_contents. unfold contents. rewrite En.
      unfold map_mgr. cbn [nodes]. rewrite !map_map, map_app. reflexivity. }
    split; [reflexivity|]. do 4 (split; [reflexivity|]). split.
    + assert (X : forall x, In x (nodes m) -> is_finite (raw (n_time x)) = true).
      { intros x Hx. apply (Hf _ (n_coef x)). rewrite <- Em, map_contents. apply in_map_iff.
        exists (n_time x, n_coef x). split; auto. unfold contents.
        now apply (in_map (fun n => (n_time n, n_coef n))) in Hx. }
      apply (ltb_val (raw (n_time n0)) (raw (n_time n1))); [apply finite_val|apply finite_val|exact Hlt];
        apply X; rewrite En, in_app_iff; simpl; auto.
    + rewrite <- Et, <- Ek. destruct Hor as [->| ->]; auto.
Qed.

(** ** Fitting *)

Lemma raw_zero : raw tzero = tzero.
Proof. reflexivity. Qed.

(** Strictly increasing finite times. *)
Fixpoint climbing (ts : list b64) : Prop :=
  match ts with
  | [] => True
  | t :: r => is_finite t = true /\ match r with [] => True | t' :: _ => nltb t t' = true end /\ climbing r
  end.

Lemma ltb_nltb (x y : b64) : b64_ltb x y = nltb x y.
Proof. reflexivity. Qed.

Lemma climbing_lift : forall ts : list b64, climbing ts -> exists ts' : list b64_time, map raw ts' = ts.
Proof.
  induction ts as [|t ts IH]; intros Hc; [now exists []|]. destruct Hc as (Ht & _ & Hc).
  destruct (IH Hc) as [ts' <-]. now exists (exist _ t (finite_not_nan t Ht) :: ts').
Qed.

Lemma climbing_increasing {C} : forall (ts : list b64_time) (cs : list C),
  climbing (map raw ts) -> increasing (combine ts cs).
Proof.
  induction ts as [|t ts IH]; intros [|c cs]; simpl; auto. intros (_ & Hh & Ht). split; [|now apply IH].
  destruct ts as [|t' ts], cs as [|c' cs]; simpl in *; auto.
Qed.

Lemma e3_fit_b64 debug g (c : e3_curve b64) (ts : list b64) vs d0 d1 out :
  consistent c -> e3_size c = 0%nat -> length ts = length vs -> climbing ts ->
  (g + N.of_nat (length ts) < key_mod)%N ->
  exists c' ks, e3_fit_with_derivatives debug g c ts vs d0 d1 out =
      Ok ((g + N.of_nat (length ts))%N, c', out ++ ks) /\ consistent c' /\
    contents c' = combine ts (map (fit_knot ts vs d0 d1) (seq 0 (length ts))).
Proof.
  intros Hc Hz Hl Hf Hg.
  assert (Hn : contents c = []) by (unfold e3_size, size in Hz; unfold contents; now destruct (nodes c)).
  unfold e3_fit_with_derivatives. rewrite Hl, Nat.eqb_refl, <- Hl. cbn [negb]. rewrite andb_false_r.
  rewrite e3_coefficients_ok by (auto; lia). cbn [bind].
  set (cs := map (fit_knot ts vs d0 d1) (seq 0 (length ts))).
  assert (Lc : length cs = length ts) by (unfold cs; now rewrite map_length, seq_length).
  clearbody cs. clear Hl. destruct (climbing_lift ts Hf) as [ts' <-].
  destruct (finite_lift c) as [m <-]; [rewrite Hn; intros ? ? []|].
  apply (map_consistent raw raw_lt) in Hc.
  assert (Sm : sane g m).
  { split; [exact Hc|]. unfold keys_below, get_keys. unfold e3_size, size in Hz. simpl in Hz.
    destruct (nodes m); [constructor|discriminate]. }
  assert (Cm : contents m = []).
  { unfold e3_size, size in Hz. simpl in Hz. unfold contents. destruct (nodes m); [auto|discriminate]. }
  rewrite map_length in *.
  destruct (insert_coefficients_end ts' cs g m out Sm) as (m' & ks & E & Sm' & Cm' & Lk); auto.
  - rewrite Cm. simpl. now apply climbing_increasing.
  - exists (map_mgr raw m'), ks. unfold e3_curve. rewrite (map_insert_coefficients raw raw_lt raw_num), E. simpl.
    split; [reflexivity|split].
    + apply (map_consistent raw raw_lt). apply Sm'.
    + rewrite map_contents, Cm', Cm. simpl. clear. revert cs.
      induction ts' as [|t ts' IH]; intros [|c cs]; simpl; auto. now rewrite IH.
Qed.

(** ** NaN *)

Lemma nan_each v : nan_vec v -> is_nan (vx v) = true /\ is_nan (vy v) = true /\ is_nan (vz v) = true.
Proof. auto. Qed.

Lemma slope_nan (t : b64) p : is_finite t = true -> finite_vec p -> nan_vec (e3_slope t t p p).
Proof.
  intros Ht (X & Y & Z). apply finite_val in Ht, X, Y, Z.
  destruct (val_zero_inv _ (val_sub_same _ _ _ Ht Ht)) as [s Es].
  destruct (val_zero_inv _ (val_sub_same _ _ _ X X)) as [s1 E1].
  destruct (val_zero_inv _ (val_sub_same _ _ _ Y Y)) as [s2 E2].
  destruct (val_zero_inv _ (val_sub_same _ _ _ Z Z)) as [s3 E3].
  unfold e3_slope. rewrite Es. unfold vmul, vsub, nan_vec, each. cbn [vx vy vz]. rewrite E1, E2, E3.
  destruct s, s1, s2, s3; vm_compute; auto.
Qed.

Lemma blend_nan_start alpha dt pa va pb vb : is_nan va = true -> is_nan (blend alpha dt pa va pb vb) = true.
Proof. intros Hn. unfold blend. apply nan_add_l, nan_add_r. now apply nan_mul_l. Qed.

Lemma blend_nan_end alpha dt pa va pb vb : is_nan vb = true -> is_nan (blend alpha dt pa va pb vb) = true.
Proof. intros Hn. unfold blend. apply nan_add_r. now apply nan_mul_l. Qed.

Lemma segment_nan ta tb ka kb t : nan_vec (k_vel ka) \/ nan_vec (k_vel kb) ->
  nan_vec (e3_segment_value ta tb ka kb t).
Proof.
  rewrite segment_blend. unfold nan_vec, each. cbn [vx vy vz]. intros [(X & Y & Z)|(X & Y & Z)].
  - repeat split; now apply blend_nan_start.
  - repeat split; now apply blend_nan_end.
Qed.

(** A look-up inside the range of three coefficients. *)
Lemma lookup_range (c : e3_curve b64) (ts : list b64) (s : b64) : consistent c -> map fst (contents c) = ts ->
  (forall t, In t ts -> is_finite t = true) -> (2 <= length ts)%nat ->
  is_nan s = false -> b64_ltb s (nth 0 ts tzero) = false -> b64_ltb (last ts tzero) s = false ->
  exists u ta ka tb kb r n0 n1, contents c = u ++ (ta, ka) :: (tb, kb) :: r /\
    get_coefficients_at c s = Some (n0, n1) /\ n_coef n0 = ka /\ n_coef n1 = kb.
Proof.
  intros Hc Et Hf Hl Ns L0 L1. destruct (finite_lift c) as [m Em].
  { intros t k Hi. apply Hf. rewrite <- Et. now apply (in_map fst) in Hi. }
  assert (Hcm : consistent m) by (rewrite <- Em in Hc; now apply map_consistent in Hc).
  set (s' := exist (fun x : b64 => is_nan x = false) s Ns : b64_time).
  assert (Nl : map (fun n => raw (n_time n)) (nodes m) = ts).
  { rewrite <- Et, <- Em, map_contents. unfold contents. now rewrite !map_map. }
  destruct (proj2 (get_at_domain m s' Hcm)) as [[n0 n1] Eg].
  { split; [unfold size; rewrite <- Nl, map_length in Hl; exact Hl|]. split.
    - rewrite ?tle_def. apply negb_true_iff. rewrite <- raw_lt. unfold min_time. rewrite <- Nl in L0.
      destruct (nodes m); simpl in *; auto.
    - rewrite ?tle_def. apply negb_true_iff. rewrite <- raw_lt. unfold max_time, last_node.
      rewrite <- (rev_involutive (nodes m)), map_rev in Nl. destruct (rev (nodes m)) as [|x r]; simpl in *.
      + rewrite <- Nl in Hl. simpl in Hl. lia.
      + rewrite <- Nl, last_last in L1. exact L1. }
  destruct (get_at_some m s' n0 n1 Hcm Eg) as (a & b & En & _).
  exists (contents (map_mgr raw (Mgr a [] 0))), (raw (n_time n0)), (n_coef n0),
      (raw (n_time n1)), (n_coef n1), (contents (map_mgr raw (Mgr b [] 0))),
      (map_node raw n0), (map_node raw n1).
  split; [|split; [|auto]].
  - rewrite <- Em, map_contents. unfold contents. rewrite En. unfold map_mgr. cbn [nodes].
    rewrite !map_map, map_app. reflexivity.
  - change s with (raw s'). rewrite <- Em. rewrite (map_get_at _ raw_lt raw_num eq_refl), Eg. reflexivity.
Qed.

(** With two coefficients or more the first and the last time differ. *)
Lemma ends_differ (c : e3_curve b64) s : consistent c -> (2 <= size c)%nat ->
  (forall t k, In (t, k) (contents c) -> is_finite t = true) ->
  neqb (max_time c) s && neqb (min_time c) s = false.
Proof.
  intros Hc Hs Hf. apply not_true_iff_false. intros E. apply andb_true_iff in E as [E1 E2].
  pose proof (c_sorted _ Hc) as Hsort. unfold get_times in Hsort. unfold size in Hs.
  assert (F : forall n, In n (nodes c) -> is_finite (n_time n) = true).
  { intros n Hn. apply (Hf _ (n_coef n)). unfold contents.
    now apply (in_map (fun n => (n_time n, n_coef n))) in Hn. }
  unfold min_time, max_time, last_node in *. destruct (nodes c) as [|a l]; simpl in Hs; [lia|].
  destruct (rev (a :: l)) as [|b r] eqn:Er.
  { apply (f_equal (@length _)) in Er. rewrite rev_length in Er. discriminate. }
  assert (Hb : In b l).
  { simpl in Er. destruct (rev l) as [|b' r'] eqn:El.
    - apply (f_equal (@length _)) in El. rewrite rev_length in El. simpl in *. lia.
    - simpl in Er. injection Er as -> _. apply in_rev. rewrite El. simpl. auto. }
  simpl in Hsort. apply StronglySorted_inv in Hsort as [_ Hfa]. rewrite Forall_map, Forall_forall in Hfa.
  specialize (Hfa _ Hb). unfold t_lt in Hfa. cbn [tlt b64_raw_TimeOps] in Hfa.
  assert (Fa : val (n_time a) (B2R (n_time a))) by (apply finite_val, F; simpl; auto).
  assert (Fb : val (n_time b) (B2R (n_time b))) by (apply finite_val, F; simpl; auto).
  apply (ltb_val _ _ _ _ Fa Fb) in Hfa.
  destruct (is_finite s) eqn:Fs.
  - destruct Fa as [Fa _], Fb as [Fb _]. cbn in E1, E2. rewrite Beqb_correct in E1, E2 by assumption.
    destruct (Req_bool_spec (B2R (n_time b)) (B2R s)); try discriminate.
    destruct (Req_bool_spec (B2R (n_time a)) (B2R s)); try discriminate. lra.
  - destruct Fa as [Fa _]. destruct s as [|[]| |], (n_time a) as [[]| | |[]]; try discriminate.
Qed.
