(** * The cubic trajectory has the least acceleration, over the reals *)

From Coq Require Import Reals Lra Lia.
From Coquelicot Require Import Coquelicot.
From Coq Require Import List Bool Arith ZArith.
From Verif Require Import Base Num TimeInst Spline SplineSpec LinSpec SplineProofs
  Container ContainerSpec ContainerProofs SetDataSpec SetDataSys SetDataProofs SetDataExist SetDataTraj SetDataTop.
Import ListNotations.
Local Open Scope R_scope.

(** ** Integrals of non-negative functions *)

Lemma sub_integral (f : R -> R) a b x y : a <= x -> x <= y -> y <= b ->
  (forall t, a <= t <= b -> continuous f t) -> (forall t, a <= t <= b -> 0 <= f t) ->
  RInt f x y <= RInt f a b.
Proof.
  intros Hax Hxy Hyb Hc Hp.
  assert (Ex : forall u v, a <= u -> u <= v -> v <= b -> ex_RInt f u v).
  { intros u v Hu Huv Hv. apply (ex_RInt_continuous f). intros t Ht.
    rewrite Rmin_left, Rmax_right in Ht by lra. apply Hc. lra. }
  rewrite <- (RInt_Chasles f a x b) by (apply Ex; lra).
  rewrite <- (RInt_Chasles f x y b) by (apply Ex; lra).
  unfold plus; simpl.
  assert (0 <= RInt f a x) by (apply RInt_ge_0; [lra|apply Ex; lra|intros; apply Hp; lra]).
  assert (0 <= RInt f y b) by (apply RInt_ge_0; [lra|apply Ex; lra|intros; apply Hp; lra]).
  lra.
Qed.

Lemma zero_integral (f : R -> R) a b : a < b ->
  (forall t, a <= t <= b -> continuous f t) -> (forall t, a <= t <= b -> 0 <= f t) ->
  RInt f a b <= 0 -> forall t, a < t < b -> f t = 0.
Proof.
  intros Hab Hc Hp Hz t Ht. destruct (Req_dec (f t) 0) as [E|Hne]; [exact E|exfalso].
  assert (Hft : 0 < f t) by (pose proof (Hp t ltac:(lra)); lra).
  assert (Hloc : locally t (fun u => 0 < f u)).
  { apply (Hc t ltac:(lra)). now apply (open_gt 0). }
  destruct Hloc as [d Hd].
  set (e := Rmin (d / 2) (Rmin (t - a) (b - t))).
  assert (He : 0 < e).
  { unfold e. apply Rmin_glb_lt; [pose proof (cond_pos d); lra|]. apply Rmin_glb_lt; lra. }
  pose proof (Rmin_l (d / 2) (Rmin (t - a) (b - t))) as M1. fold e in M1.
  pose proof (Rmin_r (d / 2) (Rmin (t - a) (b - t))) as M2. fold e in M2.
  pose proof (Rmin_l (t - a) (b - t)). pose proof (Rmin_r (t - a) (b - t)). pose proof (cond_pos d).
  assert (0 < RInt f (t - e) (t + e)).
  { apply RInt_gt_0; [lra| |].
    - intros x Hx. apply Hd. change (Rabs (x - t) < d). apply Rabs_def1; lra.
    - intros x Hx. apply Hc. lra. }
  pose proof (sub_integral f a b (t - e) (t + e) ltac:(lra) ltac:(lra) ltac:(lra) Hc Hp). lra.
Qed.

(** Two functions with the same derivative inside an interval and the same value at
    its start. *)
Lemma same_derivative (f g f' g' : R -> R) a b :
  (forall t, a <= t <= b -> derivable_pt_lim f t (f' t)) ->
  (forall t, a <= t <= b -> derivable_pt_lim g t (g' t)) -> f a = g a ->
  (forall t, a < t < b -> f' t = g' t) ->
  forall t, a <= t <= b -> f t = g t.
Proof.
  intros Hf Hg Ea Hd t Ht. destruct (Req_dec a t) as [<-|Hne]; [exact Ea|].
  destruct (MVT_cor2 (fun x => f x - g x) (fun x => f' x - g' x) a t ltac:(lra)) as (c & E & Hc).
  { intros c Hc. apply derivable_pt_lim_minus; [apply Hf|apply Hg]; lra. }
  rewrite (Hd c) in E by lra. lra.
Qed.

(** ** One cubic segment *)

Section Segment.
Variables (cs : list R) (s a b : R) (g g1 g2 : R -> R).
Hypothesis Lcs : length cs = 4%nat.
Hypothesis Hab : a <= b.
Hypothesis Hg : forall t, a <= t <= b -> derivable_pt_lim g t (g1 t).
Hypothesis Hg1 : forall t, a <= t <= b -> derivable_pt_lim g1 t (g2 t).
Hypothesis Hg2 : forall t, a <= t <= b -> continuity_pt g2 t.

Let p t := poly 3 cs (t - s).
Let v t := dpoly 3 cs (t - s).
Let w t := ddpoly 3 cs (t - s).
Let k := 6 * nth 0 cs 0.

Lemma w_derive t : derivable_pt_lim w t k.
Proof.
  unfold w, k. apply (shift_derive (ddpoly 3 cs)). destruct cs as [|x [|y [|z [|u [|? ?]]]]]; try discriminate Lcs.
  unfold ddpoly. simpl. auto_derive; [exact I|ring].
Qed.

Lemma segment_cross : is_RInt (fun t => w t * (g2 t - w t)) a b
  (w b * (g1 b - v b) - k * (g b - p b) - (w a * (g1 a - v a) - k * (g a - p a))).
Proof.
  apply (is_RInt_derive (fun t => w t * (g1 t - v t) - k * (g t - p t)) (fun t => w t * (g2 t - w t))).
  - intros t Ht. rewrite Rmin_left, Rmax_right in Ht by lra. apply is_derive_Reals.
    replace (w t * (g2 t - w t)) with ((k * (g1 t - v t) + w t * (g2 t - w t)) - k * (g1 t - v t)) by ring.
    apply derivable_pt_lim_minus.
    + apply (derivable_pt_lim_mult w (fun t => g1 t - v t)); [apply w_derive|].
      apply derivable_pt_lim_minus; [now apply Hg1|]. apply (shift_derive (dpoly 3 cs)), dpoly_derive.
    + apply (derivable_pt_lim_scal (fun t => g t - p t)). apply derivable_pt_lim_minus; [now apply Hg|].
      apply (shift_derive (poly 3 cs)), poly_derive.
  - intros t Ht. rewrite Rmin_left, Rmax_right in Ht by lra. apply continuity_pt_filterlim.
    apply continuity_pt_mult; [apply (ddpoly_continuous 3); lia|].
    apply continuity_pt_minus; [now apply Hg2|apply (ddpoly_continuous 3); lia].
Qed.

End Segment.

(** ** The whole trajectory *)

Section Energy.
Variables (D P : list R) (segs : list (list R)) (v0 vT : R).
Hypothesis Hn : (1 <= length D)%nat.
Hypothesis Hsmall : (Z.of_nat (length D) < 2 ^ 31)%Z.
Hypothesis HD : positive D.
Hypothesis Hsegs : segments 3 (length D) segs.
Hypothesis Hgood : good 3 (length D) D P [v0] [vT] segs.

Local Notation n := (length D).
Local Notation l := (splines_of segs D).
Local Notation c := (holding (splines_of segs D)).
Local Notation T := (start l n).

Let pos := position 3 c.
Let vel := velocity 3 c.
Let acc := acceleration 3 c.

Variables (g g1 g2 : R -> R).
Hypothesis Hg : forall t, 0 <= t <= T -> derivable_pt_lim g t (g1 t).
Hypothesis Hg1 : forall t, 0 <= t <= T -> derivable_pt_lim g1 t (g2 t).
Hypothesis Hg2 : forall t, 0 <= t <= T -> continuity_pt g2 t.
Hypothesis Hk : forall i, (i <= n)%nat -> g (start l i) = nth i P 0.
Hypothesis H0 : g1 0 = v0.
Hypothesis HT : g1 T = vT.

Let o3 : (1 <= 3 <= 5)%nat. Proof. lia. Qed.
Let Hj : joined 3 n D P segs. Proof. apply Hgood. Qed.

Lemma piece i t : (i < n)%nat -> start l i <= t <= start l (i + 1) ->
  pos t = poly 3 (nth i segs []) (t - start l i) /\
  vel t = dpoly 3 (nth i segs []) (t - start l i) /\
  acc t = ddpoly 3 (nth i segs []) (t - start l i).
Proof. intros Hi Ht. apply (closed_piece 3 D P segs o3 Hn Hsmall HD Hsegs Hj i t Hi Ht). Qed.

Lemma piece_order i : (i < n)%nat -> 0 <= start l i < start l (i + 1) /\ start l (i + 1) <= T.
Proof.
  intros Hi. pose proof (traj_positive 3 D segs o3 Hn HD) as Hp. pose proof (traj_length D segs) as L.
  split; [split|].
  - rewrite <- (start_0 l). apply start_mono_le; auto. lia.
  - apply start_mono; auto. lia.
  - apply start_mono_le; auto. lia.
Qed.

Lemma pos_knot i : (i <= n)%nat -> pos (start l i) = nth i P 0.
Proof.
  intros Hi. unfold pos, position.
  rewrite (knots_met 3 D P segs o3 Hn Hsmall HD Hsegs); [reflexivity| |exact Hi].
  destruct Hgood as ((A & _) & (B & _) & J). split; [exact A|]. split; [exact B|].
  intros j Hj'. apply (J j Hj').
Qed.

Lemma vel_start : vel 0 = v0.
Proof.
  destruct (piece 0 0 ltac:(lia)) as (_ & E & _).
  { pose proof (piece_order 0 ltac:(lia)). rewrite start_0 in *. lra. }
  rewrite E, start_0, Rminus_0_r. apply Hgood.
Qed.

Lemma vel_end : vel T = vT.
Proof.
  pose proof (piece_order (n - 1) ltac:(lia)) as Ho. replace (n - 1 + 1)%nat with n in Ho by lia.
  destruct (piece (n - 1) T ltac:(lia)) as (_ & E & _).
  { replace (n - 1 + 1)%nat with n by lia. lra. }
  rewrite E. pose proof (traj_start_S 3 D segs (n - 1) ltac:(lia)) as ES.
  replace (n - 1 + 1)%nat with n in ES by lia. rewrite ES.
  replace (start l (n - 1) + nth (n - 1) D 0 - start l (n - 1)) with (nth (n - 1) D 0) by ring. apply Hgood.
Qed.

(** Every function that is continuous on each closed piece is integrable. *)
Lemma pieces_integrable (f : R -> R) : 
  (forall i, (i < n)%nat -> exists h, (forall t, start l i <= t <= start l (i + 1) -> f t = h t /\ continuous h t)) ->
  forall i, (i <= n)%nat -> ex_RInt f 0 (start l i).
Proof.
  intros Hf. induction i as [|i IH]; intros Hi; [rewrite start_0; apply ex_RInt_point|].
  apply ex_RInt_Chasles with (start l i); [apply IH; lia|].
  destruct (Hf i ltac:(lia)) as (h & Hh). pose proof (piece_order i ltac:(lia)) as Ho.
  rewrite <- Nat.add_1_r. apply ex_RInt_ext with h.
  - intros x Hx. rewrite Rmin_left, Rmax_right in Hx by lra. symmetry. apply Hh. lra.
  - apply (ex_RInt_continuous h). intros x Hx. rewrite Rmin_left, Rmax_right in Hx by lra. apply Hh. lra.
Qed.

Lemma ddpoly_continuous' cs s t : continuous (fun x => ddpoly 3 cs (x - s)) t.
Proof. apply continuity_pt_filterlim, ddpoly_continuous. lia. Qed.

Lemma cross i : (i <= n)%nat ->
  is_RInt (fun t => acc t * (g2 t - acc t)) 0 (start l i) (acc (start l i) * (g1 (start l i) - vel (start l i))).
Proof.
  induction i as [|i IH]; intros Hi.
  - rewrite start_0, H0, vel_start.
    replace (acc 0 * (v0 - v0)) with (@zero R_NormedModule) by (unfold zero; simpl; ring). apply is_RInt_point.
  - pose proof (piece_order i ltac:(lia)) as Ho. rewrite <- (Nat.add_1_r i).
    set (a := start l i) in *. set (b := start l (i + 1)) in *.
    assert (Lcs : length (nth i segs []) = 4%nat) by (apply (seg_length 3 D segs o3 Hn Hsegs); lia).
    pose proof (segment_cross (nth i segs []) a a b g g1 g2 Lcs ltac:(lra)
      ltac:(intros; apply Hg; lra) ltac:(intros; apply Hg1; lra) ltac:(intros; apply Hg2; lra)) as S.
    destruct (piece i a ltac:(lia) ltac:(fold a b; lra)) as (Pa & Va & Aa).
    destruct (piece i b ltac:(lia) ltac:(fold a b; lra)) as (Pb & Vb & Ab).
    cbv beta in S. fold a in Pa, Va, Aa, Pb, Vb, Ab. rewrite <- Pa, <- Va, <- Aa, <- Pb, <- Vb, <- Ab in S.
    assert (Ka : g a = pos a) by (unfold a; rewrite pos_knot by lia; apply Hk; lia).
    assert (Kb : g b = pos b) by (unfold b; rewrite pos_knot by lia; apply Hk; lia).
    rewrite Ka, Kb in S.
    assert (S' : is_RInt (fun t => acc t * (g2 t - acc t)) a b (acc b * (g1 b - vel b) - acc a * (g1 a - vel a))).
    { match type of S with is_RInt _ _ _ ?x =>
        replace (acc b * (g1 b - vel b) - acc a * (g1 a - vel a)) with x by ring end.
      apply is_RInt_ext with (2 := S). intros x Hx. rewrite Rmin_left, Rmax_right in Hx by lra.
      destruct (piece i x ltac:(lia) ltac:(fold a b; lra)) as (_ & _ & Ax). fold a in Ax. now rewrite Ax. }
    pose proof (is_RInt_Chasles _ _ _ _ _ _ (IH ltac:(lia)) S') as X. unfold plus in X; simpl in X.
    replace (acc b * (g1 b - vel b)) with
      (acc a * (g1 a - vel a) + (acc b * (g1 b - vel b) - acc a * (g1 a - vel a))) by ring.
    exact X.
Qed.

Lemma continuous_g2 t : 0 <= t <= T -> continuous g2 t.
Proof. intros Ht. apply continuity_pt_filterlim, Hg2, Ht. Qed.

Lemma integrable_acc : ex_RInt (fun t => acc t ^ 2) 0 T.
Proof.
  apply (pieces_integrable (fun t => acc t ^ 2)); [|lia]. intros i Hi.
  exists (fun t => ddpoly 3 (nth i segs []) (t - start l i) * (ddpoly 3 (nth i segs []) (t - start l i) * 1)).
  intros t Ht. destruct (piece i t Hi Ht) as (_ & _ & ->). split; [reflexivity|].
  apply continuity_pt_filterlim. apply continuity_pt_mult; [apply ddpoly_continuous; lia|].
  apply continuity_pt_mult; [apply ddpoly_continuous; lia|apply continuity_pt_const; intros ? ?; reflexivity].
Qed.

Lemma integrable_diff : ex_RInt (fun t => (g2 t - acc t) ^ 2) 0 T.
Proof.
  apply (pieces_integrable (fun t => (g2 t - acc t) ^ 2)); [|lia]. intros i Hi. pose proof (piece_order i Hi).
  exists (fun t => (g2 t - ddpoly 3 (nth i segs []) (t - start l i)) * ((g2 t - ddpoly 3 (nth i segs []) (t - start l i)) * 1)).
  intros t Ht. destruct (piece i t Hi Ht) as (_ & _ & ->). split; [reflexivity|].
  assert (C : continuity_pt (fun t => g2 t - ddpoly 3 (nth i segs []) (t - start l i)) t).
  { apply (continuity_pt_minus g2); [apply Hg2; lra|apply ddpoly_continuous; lia]. }
  apply continuity_pt_filterlim. apply continuity_pt_mult; [exact C|].
  apply continuity_pt_mult; [exact C|apply continuity_pt_const; intros ? ?; reflexivity].
Qed.

(** The energy of a competitor is the energy of the trajectory and that of the
    difference. *)
Lemma energy_split : is_RInt (fun t => g2 t ^ 2) 0 T
  (RInt (fun t => acc t ^ 2) 0 T + RInt (fun t => (g2 t - acc t) ^ 2) 0 T).
Proof.
  pose proof (cross n (Nat.le_refl n)) as C. rewrite HT, vel_end in C.
  pose proof (RInt_correct _ _ _ integrable_acc) as A. pose proof (RInt_correct _ _ _ integrable_diff) as B.
  set (x := RInt (fun t => acc t ^ 2) 0 T) in *. set (y := RInt (fun t => (g2 t - acc t) ^ 2) 0 T) in *.
  replace (x + y) with (plus (plus x y) (scal 2 (acc T * (vT - vT))))
    by (unfold plus, scal; simpl; unfold mult; simpl; ring).
  eapply is_RInt_ext; [|apply (is_RInt_plus (fun t => plus (acc t ^ 2) ((g2 t - acc t) ^ 2)) (fun t => scal 2 (acc t * (g2 t - acc t))));
    [apply (is_RInt_plus _ _ _ _ _ _ A B)|apply (is_RInt_scal _ _ _ 2 _ C)]].
  intros t _. unfold plus, scal; simpl; unfold mult; simpl. ring.
Qed.

Lemma energy_least :
  ex_RInt (fun t => g2 t ^ 2) 0 T /\ RInt (fun t => acc t ^ 2) 0 T <= RInt (fun t => g2 t ^ 2) 0 T.
Proof.
  split; [eexists; apply energy_split|]. rewrite (is_RInt_unique _ _ _ _ energy_split).
  assert (0 <= RInt (fun t => (g2 t - acc t) ^ 2) 0 T).
  { apply RInt_ge_0; [|apply integrable_diff|intros; apply pow2_ge_0].
    pose proof (piece_order 0 ltac:(lia)). pose proof (piece_order (n - 1) ltac:(lia)) as H1.
    replace (n - 1 + 1)%nat with n in H1 by lia. lra. }
  lra.
Qed.

Hypothesis Hle : RInt (fun t => g2 t ^ 2) 0 T <= RInt (fun t => acc t ^ 2) 0 T.

(** On each piece the difference of the accelerations is zero. *)
Lemma piece_same i : (i < n)%nat -> forall t, start l i < t < start l (i + 1) ->
  g2 t = ddpoly 3 (nth i segs []) (t - start l i).
Proof.
  intros Hi t Ht. set (f := fun t => (g2 t - ddpoly 3 (nth i segs []) (t - start l i)) ^ 2).
  pose proof (piece_order i Hi) as Ho.
  assert (Hc : forall t, start l i <= t <= start l (i + 1) -> continuous f t).
  { intros x Hx. unfold f. apply continuity_pt_filterlim.
    assert (C : continuity_pt (fun t => g2 t - ddpoly 3 (nth i segs []) (t - start l i)) x).
    { apply (continuity_pt_minus g2); [apply Hg2; lra|apply ddpoly_continuous; lia]. }
    apply continuity_pt_mult; [exact C|].
    apply continuity_pt_mult; [exact C|apply continuity_pt_const; intros ? ?; reflexivity]. }
  assert (Hz : f t = 0).
  { apply (zero_integral f (start l i) (start l (i + 1))); auto; [lra|intros; apply pow2_ge_0|].
    set (d := fun t => (g2 t - acc t) ^ 2).
    rewrite (RInt_ext f d).
    2:{ intros x Hx. rewrite Rmin_left, Rmax_right in Hx by lra.
        destruct (piece i x Hi ltac:(lra)) as (_ & _ & Ax). unfold f, d. now rewrite Ax. }
    assert (Ex : forall u v, 0 <= u -> u <= v -> v <= T -> ex_RInt d u v).
    { intros u v Hu Huv Hv. apply (ex_RInt_Chasles_1 d u v T); [lra|].
      apply (ex_RInt_Chasles_2 d 0 u T); [lra|]. apply integrable_diff. }
    pose proof (is_RInt_unique _ _ _ _ energy_split) as Es. fold d in Es.
    rewrite Es in Hle. assert (Hd : RInt d 0 T <= 0) by lra.
    rewrite <- (RInt_Chasles d 0 (start l i) T) in Hd by (apply Ex; lra).
    rewrite <- (RInt_Chasles d (start l i) (start l (i + 1)) T) in Hd by (apply Ex; lra).
    unfold plus in Hd; simpl in Hd.
    assert (0 <= RInt d 0 (start l i)) by (apply RInt_ge_0; [lra|apply Ex; lra|intros; apply pow2_ge_0]).
    assert (0 <= RInt d (start l (i + 1)) T) by (apply RInt_ge_0; [lra|apply Ex; lra|intros; apply pow2_ge_0]).
    lra. }
  unfold f in Hz. apply Rsqr_0_uniq in Hz || (rewrite <- Rsqr_pow2 in Hz; apply Rsqr_0_uniq in Hz). lra.
Qed.

Lemma same_to i : (i <= n)%nat -> g (start l i) = pos (start l i) /\ g1 (start l i) = vel (start l i) /\
  forall t, 0 <= t <= start l i -> g t = pos t.
Proof.
  induction i as [|i IH]; intros Hi.
  - rewrite start_0. assert (E : g 0 = pos 0) by (rewrite <- (start_0 l), pos_knot by lia; apply Hk; lia).
    split; [exact E|]. split; [rewrite H0, vel_start; reflexivity|].
    intros t Ht. replace t with 0 by lra. exact E.
  - destruct (IH ltac:(lia)) as (E & E1 & Et). pose proof (piece_order i ltac:(lia)) as Ho.
    rewrite <- (Nat.add_1_r i).
    destruct (piece i (start l i) ltac:(lia) ltac:(lra)) as (Pa & Va & _).
    assert (S1 : forall t, start l i <= t <= start l (i + 1) -> g1 t = dpoly 3 (nth i segs []) (t - start l i)).
    { apply (same_derivative g1 _ g2 (fun t => ddpoly 3 (nth i segs []) (t - start l i))).
      - intros; apply Hg1; lra.
      - intros t _. apply (shift_derive (dpoly 3 (nth i segs []))), dpoly_derive.
      - now rewrite E1.
      - apply piece_same; lia. }
    assert (S0 : forall t, start l i <= t <= start l (i + 1) -> g t = poly 3 (nth i segs []) (t - start l i)).
    { apply (same_derivative g _ g1 (fun t => dpoly 3 (nth i segs []) (t - start l i))).
      - intros; apply Hg; lra.
      - intros t _. apply (shift_derive (poly 3 (nth i segs []))), poly_derive.
      - now rewrite E.
      - intros; apply S1; lra. }
    destruct (piece i (start l (i + 1)) ltac:(lia) ltac:(lra)) as (Pb & Vb & _).
    split; [rewrite Pb; apply S0; lra|]. split; [rewrite Vb; apply S1; lra|].
    intros t Ht. destruct (Rle_or_lt t (start l i)); [apply Et; lra|].
    destruct (piece i t ltac:(lia) ltac:(lra)) as (-> & _). apply S0. lra.
Qed.

End Energy.
