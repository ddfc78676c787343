(** * C122: how closely a discrete curve follows the motion it was sampled from *)

From Coquelicot Require Import Coquelicot.
From Coq Require Import List Reals Lra Lia Bool Arith NArith ZArith Permutation Sorting.Sorted.
From Verif Require Import Base TimeOrder TimeInst KeyGen Manager ManagerSpec ManagerProofs ManagerProofs2
  ManagerProofs3 Num Sampling SamplingSpec SamplingProofs HermiteSpec HermiteE3Proofs Discrete DiscreteSpec DiscreteProofs
  Props_Manager Props_Discrete Composition Props_Composition Props_Piecewise.
Import ListNotations.
Local Open Scope R_scope.

(** Not in the source: no two neighbouring times of the list are more than [h] apart, that
    is, every time in its range lies in some window of length [h] that begins and ends at
    times of the list. *)
Definition covered (ts : list R) (h : R) : Prop :=
  forall a b t, In a ts -> In b ts -> a <= t <= b -> exists a' b', In a' ts /\ In b' ts /\ a' <= t <= b' /\ b' - a' <= h.

(** Not in the source: the time [t] lies in the range of the times of the list. *)
Definition in_range (ts : list R) (t : R) : Prop := exists a b, In a ts /\ In b ts /\ a <= t <= b.

(** Not in the source: the motion [f] changes by at most [L] per unit of time, measured by [dist]. *)
Definition paced {V} (dist : V -> V -> R) (f : R -> V) (L : R) : Prop :=
  forall s t, dist (f s) (f t) <= L * Rabs (s - t).

(** Not in the source: the triangle inequality. *)
Definition triangle {V} (dist : V -> V -> R) : Prop := forall x y z, dist x z <= dist x y + dist y z.

Section Sampled.
Context {V : Type} (dist : V -> V -> R) (f : R -> V) (L h e : R).
Local Notation curve := (@slerp_curve R V).
Hypothesis Htri : triangle dist.
Hypothesis HL : 0 <= L.
Hypothesis Hf : paced dist f L.

(** Any discrete curve, however its coefficients came about: if each of them lies within
    [e] of the motion at its time, the curve lies within [L * h / 2 + e] everywhere. *)
Theorem C122_curve : forall (c : curve) t,
  consistent (s_mgr c) -> (forall t v, In (t, v) (contents (s_mgr c)) -> dist v (f t) <= e) ->
  covered (map fst (contents (s_mgr c))) h -> in_range (map fst (contents (s_mgr c))) t ->
  exists v, disc_evaluate c t = Ok v /\ dist v (f t) <= L * (h / 2) + e.
Proof.
  intros c t Hc He Hg (a & b & Ha & Hb & Ht).
  destruct (Hg a b t Ha Hb Ht) as (a' & b' & Ha' & Hb' & Ht' & Hh).
  apply in_map_iff in Ha' as ((? & va) & <- & Ha'). apply in_map_iff in Hb' as ((? & vb) & <- & Hb').
  cbn [fst] in *. rename r into x, r0 into y.
  assert (Hn : contents (s_mgr c) <> []) by (intros X; rewrite X in Ha'; destruct Ha').
  pose proof (contents_bounds _ _ _ Hc Ha'). pose proof (contents_bounds _ _ _ Hc Hb').
  destruct (C49_nearest c t Hc Hn) as (v & Ev & Hv); [lra|].
  destruct (proj2 (Hv v) eq_refl) as (tk & Hk & Hnear).
  exists v. split; [exact Ev|].
  assert (D : Rabs (tk - t) <= h / 2).
  { rewrite Rabs_minus_sym. destruct (Hnear _ _ Ha') as (N1 & _). destruct (Hnear _ _ Hb') as (N2 & _).
    rewrite (Rabs_pos_eq (t - x)) in N1 by lra. rewrite (Rabs_left1 (t - y)) in N2 by lra. lra. }
  pose proof (Htri v (f tk) (f t)). pose proof (He _ _ Hk). pose proof (Hf tk t).
  pose proof (Rmult_le_compat_l L _ _ HL D). lra.
Qed.

(** A curve fitted to measurements that are off by at most [e], in any order. *)
Theorem C122_fit : forall g (c : curve) ts vs out,
  length ts = length vs -> ts <> [] -> (g + N.of_nat (length ts) < 2 ^ 64)%N ->
  (forall t v, In (t, v) (combine ts vs) -> dist v (f t) <= e) -> covered ts h ->
  exists g' c' ks, slerp_fit g c ts vs out = Ok (g', c', out ++ ks) /\
    forall t, in_range ts t -> exists v, disc_evaluate c' t = Ok v /\ dist v (f t) <= L * (h / 2) + e.
Proof.
  intros g c ts vs out Hl Hn Hg He Hgap.
  destruct (C75_fit_discrete g c ts vs out Hl Hn Hg) as (g' & c' & ks & E & [Hc' _] & Hi & _).
  exists g', c', ks. split; [exact E|].
  assert (Htimes : forall t, In t (map fst (contents (s_mgr c'))) <-> In t ts).
  { intros t. rewrite in_map_iff. split.
    - intros ((u & v) & <- & Hu). apply Hi, last_value_in in Hu. exact Hu.
    - intros Ht. destruct (in_last_value ts vs t Hl Ht) as (v & Ev). exists (t, v). split; [reflexivity|now apply Hi]. }
  intros t (a & b & Ha & Hb & Ht). apply C122_curve; auto.
  - intros u v Hu. apply Hi in Hu. apply He.
    clear - Hu. revert Hu. induction (combine ts vs) as [|(s & w) l IH]; [discriminate|].
    cbn [last_value]. destruct (last_value l u) as [v'|] eqn:El.
    + intros X. right. apply IH. exact X.
    + destruct (teq s u) eqn:Et; [|discriminate]. intros X. injection X as <-. left. apply teq_R in Et. congruence.
  - intros a' b' t' Ha' Hb' Ht'. apply Htimes in Ha', Hb'.
    destruct (Hgap a' b' t' Ha' Hb' Ht') as (x & y & Hx & Hy & R1). exists x, y. rewrite !Htimes. auto.
  - exists a, b. rewrite !Htimes. auto.
Qed.

(** The values at two times differ by little more than the motion moved between them: by
    at most [L * h + 2 * e] more, however close the two times are. *)
Theorem C122_steps : forall (c : curve) s t,
  (forall x y, dist x y = dist y x) ->
  consistent (s_mgr c) -> (forall t v, In (t, v) (contents (s_mgr c)) -> dist v (f t) <= e) ->
  covered (map fst (contents (s_mgr c))) h ->
  in_range (map fst (contents (s_mgr c))) s -> in_range (map fst (contents (s_mgr c))) t ->
  exists v w, disc_evaluate c s = Ok v /\ disc_evaluate c t = Ok w /\
    dist v w <= L * Rabs (s - t) + (L * h + 2 * e).
Proof.
  intros c s t Hsym Hc He Hg Hs Ht.
  destruct (C122_curve c s Hc He Hg Hs) as (v & Ev & Dv). destruct (C122_curve c t Hc He Hg Ht) as (w & Ew & Dw).
  exists v, w. split; [exact Ev|]. split; [exact Ew|].
  pose proof (Htri v (f s) w). pose proof (Htri (f s) (f t) w). pose proof (Hf s t).
  rewrite (Hsym (f t) w) in *. lra.
Qed.

End Sampled.

(** Not in the source: the distance of two numbers. *)
Definition apart (x y : R) : R := Rabs (x - y).

Lemma apart_triangle : triangle apart.
Proof. intros x y z. unfold apart. replace (x - z) with ((x - y) + (y - z)) by ring. apply Rabs_triang. Qed.

Lemma straight_paced L : 0 <= L -> paced apart (fun t => L * t) L.
Proof.
  intros HL s t. unfold apart. replace (L * s - L * t) with (L * (s - t)) by ring.
  rewrite Rabs_mult, (Rabs_pos_eq L) by lra. lra.
Qed.

Lemma two_covered h : 0 < h -> covered [0; h] h.
Proof.
  intros Hh a b t Ha Hb Ht. exists 0, h. simpl.
  destruct Ha as [<-|[<-|[]]]; destruct Hb as [<-|[<-|[]]]; repeat split; auto; lra.
Qed.

(** The bound is reached halfway between two samples, whatever the speed, the step and
    the measurement error: no smaller bound holds. *)
Theorem C122_sharp : forall L h e, 0 <= L -> 0 < h -> 0 <= e ->
  exists g' (c' : @slerp_curve R R) ks v,
    slerp_fit 0 (Slerp mgr_empty policy_default) [0; h] [0 - e; L * h] [] = Ok (g', c', ks) /\
    (forall t v, In (t, v) (combine [0; h] [0 - e; L * h]) -> apart v (L * t) <= e) /\
    disc_evaluate c' (h / 2) = Ok v /\ apart v (L * (h / 2)) = L * (h / 2) + e.
Proof.
  intros L h e HL Hh He0.
  destruct (C75_fit_discrete 0%N (Slerp mgr_empty policy_default) [0; h] [0 - e; L * h] [] eq_refl)
    as (g' & c' & ks & E & [Hc' _] & Hi & _); [discriminate|reflexivity|].
  assert (T0 : teq 0 0 = true) by (now apply teq_R). assert (Th : teq h h = true) by (now apply teq_R).
  assert (T1 : teq 0 h = false) by (apply not_true_iff_false; rewrite teq_R; lra).
  assert (T2 : teq h 0 = false) by (apply not_true_iff_false; rewrite teq_R; lra).
  assert (I0 : In (0, 0 - e) (contents (s_mgr c'))) by (apply Hi; cbn [combine last_value]; now rewrite T2, T0).
  assert (I1 : In (h, L * h) (contents (s_mgr c'))) by (apply Hi; cbn [combine last_value]; now rewrite Th).
  assert (Only : forall t v, In (t, v) (contents (s_mgr c')) -> t = 0 \/ t = h).
  { intros t v X. apply Hi, last_value_in in X. simpl in X. intuition. }
  assert (Hn : contents (s_mgr c') <> []) by (intros X; rewrite X in I0; destruct I0).
  pose proof (contents_bounds _ _ _ Hc' I0). pose proof (contents_bounds _ _ _ Hc' I1).
  destruct (C49_nearest c' (h / 2) Hc' Hn) as (v & Ev & Hv); [lra|].
  assert (v = 0 - e) as ->.
  { symmetry. apply Hv. exists 0. split; [exact I0|]. intros t' v' X. apply Only in X.
    rewrite (Rabs_pos_eq (h / 2 - 0)) by lra. destruct X as [-> | ->].
    - rewrite Rabs_pos_eq by lra. lra.
    - rewrite Rabs_left1 by lra. lra. }
  exists g', c', ks, (0 - e). split; [exact E|]. split; [|split; [exact Ev|]].
  - intros t v [X|[X|[]]]; injection X as <- <-; unfold apart.
    + rewrite Rabs_left1 by lra. lra.
    + replace (L * h - L * h) with 0 by ring. rewrite Rabs_R0. exact He0.
  - unfold apart. pose proof (Rmult_le_pos L (h / 2) HL). rewrite Rabs_left1 by lra. lra.
Qed.

(** Three samples of a motion with speed 2, half a second apart. *)
Example C122_example : exists g' (c' : @slerp_curve R R) ks,
  slerp_fit 0 (Slerp mgr_empty policy_default) [1; 0; 1 / 2] [2; 0; 1] [] = Ok (g', c', ks) /\
  forall t, 0 <= t <= 1 -> exists v, disc_evaluate c' t = Ok v /\ apart v (2 * t) <= 1 / 2.
Proof.
  destruct (C122_fit apart (fun t => 2 * t) 2 (1 / 2) 0 apart_triangle ltac:(lra) (straight_paced 2 ltac:(lra))
    0%N (Slerp mgr_empty policy_default) [1; 0; 1 / 2] [2; 0; 1] []) as (g' & c' & ks & E & H);
    [reflexivity|discriminate|reflexivity| | |].
  - intros t v [X|[X|[X|[]]]]; injection X as <- <-; unfold apart;
      match goal with |- Rabs ?x <= _ => replace x with 0 by field end; rewrite Rabs_R0; lra.
  - intros a b t Ha Hb Ht. destruct (Rle_dec t (1 / 2)) as [C|C].
    + exists 0, (1 / 2). split; [now right; left|]. split; [now right; right; left|].
      destruct Ha as [<-|[<-|[<-|[]]]]; lra.
    + exists (1 / 2), 1. split; [now right; right; left|]. split; [now left|].
      destruct Hb as [<-|[<-|[<-|[]]]]; lra.
  - exists g', c', ks. split; [exact E|]. intros t Ht. destruct (H t) as (v & Ev & Dv).
    + exists 0, 1. simpl. auto.
    + exists v. split; [exact Ev|]. lra.
Qed.
