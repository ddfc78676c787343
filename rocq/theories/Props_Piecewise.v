(** * C75, C76: filling and refining the curves that interpolate between poses *)

From Coquelicot Require Import Coquelicot.
From Coq Require Import List Reals Lra Lia Bool Arith NArith ZArith Permutation Sorting.Sorted.
From Verif Require Import Base TimeOrder TimeInst KeyGen Manager ManagerSpec ManagerProofs ManagerProofs2
  ManagerProofs3 Num Sampling SamplingSpec SamplingProofs HermiteSpec HermiteE3Proofs Discrete DiscreteSpec DiscreteProofs
  Props_Manager Props_Discrete Composition Props_Composition Slerp2 Se2.
Import ListNotations.
Local Open Scope R_scope.

Section General.
Context {V : Type}.
Local Notation mgr := (mgr R V).
Local Notation curve := (@slerp_curve R V).

(** Two coefficients without one in between are adjacent. *)
Lemma adjacent_of_in (m : mgr) ta va tb vb : consistent m ->
  In (ta, va) (contents m) -> In (tb, vb) (contents m) -> ta < tb ->
  (forall t v, In (t, v) (contents m) -> ~ ta < t < tb) -> adjacent (contents m) (ta, va) (tb, vb).
Proof.
  intros Hc Ha Hb Hlt Hno. destruct (in_split _ _ Ha) as (u & w & E). exists u.
  destruct w as [|[t1 v1] w].
  { pose proof (contents_max _ _ _ _ E). pose proof (contents_bounds _ _ _ Hc Hb). lra. }
  exists w. rewrite E. do 3 f_equal. pose proof (consistent_incr _ _ _ _ _ _ _ Hc E).
  destruct (split_bounds m u ta va t1 v1 w tb vb Hc E Hb) as [X|[[X _]|[[-> ->]|X]]]; try lra; [reflexivity|].
  exfalso. apply (Hno t1 v1); [|lra]. rewrite E, in_app_iff. simpl. auto.
Qed.

Lemma adjacent_none (m : mgr) ta va tb vb t v : consistent m ->
  adjacent (contents m) (ta, va) (tb, vb) -> In (t, v) (contents m) -> ~ ta < t < tb.
Proof. intros Hc (u & w & E) Hi. destruct (split_bounds m u ta va tb vb w t v Hc E Hi) as [X|[[X _]|[[X _]|X]]]; lra. Qed.

(** What is on a curve after inserting. *)
Lemma filled g (m : mgr) ts vs out : sane g m ->
  length ts = length vs -> (g + N.of_nat (length ts) < key_mod)%N ->
  exists g' m' ks, insert_coefficients g m ts vs out = Ok (g', m', out ++ ks) /\ sane g' m' /\
    (forall t v, In (t, v) (contents m') <->
       last_value (combine ts vs) t = Some v \/ (last_value (combine ts vs) t = None /\ In (t, v) (contents m))) /\
    (forall t k v, holds m t k v -> exists v', holds m' t k v').
Proof.
  intros [Hc Hb] Hl Hg. destruct (C04_bulk_values g m ts vs out Hc Hb Hg Hl)
    as (g' & m' & ks & E & Hc' & Hb' & Hv & Hr & Hk & _).
  exists g', m', ks. split; [exact E|]. split; [now split|]. split; [|exact Hk].
  intros t v. split.
  - intros Hi. destruct (last_value (combine ts vs) t) as [v0|] eqn:El.
    + left. destruct (Hv t v0 El) as (k & Hh). f_equal. apply (contents_unique m' t _ _ Hc'); [|exact Hi].
      apply holds_contents. eauto.
    + right. split; [reflexivity|]. apply holds_contents in Hi as (k & Hh). apply holds_contents. exists k. now apply Hr.
  - intros [El|[El Hi]].
    + apply holds_contents. now apply Hv.
    + apply holds_contents in Hi as (k & Hh). apply holds_contents. exists k. now apply Hr.
Qed.

Lemma last_value_in ts vs t v : last_value (combine ts vs : list (R * V)) t = Some v -> In t ts.
Proof.
  revert vs. induction ts as [|t0 ts IH]; intros [|v0 vs]; simpl; try discriminate.
  destruct (last_value (combine ts vs) t) as [v1|] eqn:E; [intros X; right; apply (IH vs); congruence|].
  destruct (teq t0 t) eqn:Et; [|discriminate]. intros _. left. now apply teq_R in Et.
Qed.

Lemma in_last_value ts vs t : length ts = length vs -> In t ts ->
  exists v, last_value (combine ts vs : list (R * V)) t = Some v.
Proof.
  revert vs. induction ts as [|t0 ts IH]; intros [|v0 vs] Hl Hi; simpl in *; try easy.
  injection Hl as Hl. destruct Hi as [<-|Hi].
  - destruct (last_value (combine ts vs) t0); [eauto|]. rewrite (proj2 (teq_R t0 t0) eq_refl). eauto.
  - destruct (IH vs Hl Hi) as (v & ->). eauto.
Qed.

Lemma range_by_points (m : mgr) (t : R) : consistent m -> contents m <> [] ->
  (min_time m <= t <= max_time m <->
   exists ta va tb vb, In (ta, va) (contents m) /\ In (tb, vb) (contents m) /\ ta <= t <= tb).
Proof.
  intros Hc Hn. split.
  - intros Ht. destruct (contents m) as [|[t0 v0] r] eqn:E; [congruence|]. rewrite <- E.
    pose proof (contents_first _ _ _ _ E) as E0.
    assert (Hl : exists l t1 v1, contents m = l ++ [(t1, v1)]).
    { rewrite E. destruct (@exists_last _ ((t0, v0) :: r)) as (l & [t1 v1] & El); [discriminate|]. eauto. }
    destruct Hl as (l & t1 & v1 & El). pose proof (contents_max _ _ _ _ El) as E1.
    exists t0, v0, t1, v1. split; [rewrite E; now left|]. split; [|lra]. rewrite El, in_app_iff. simpl. auto.
  - intros (ta & va & tb & vb & Ha & Hb & Ht).
    pose proof (contents_bounds _ _ _ Hc Ha). pose proof (contents_bounds _ _ _ Hc Hb). lra.
Qed.

(** fitCurve on any of the three curves, by what happens between coefficients. *)
Lemma fit_general (mid : @middle R V) g (c : curve) ts vs out : starts mid ->
  length ts = length vs -> ts <> [] -> (g + N.of_nat (length ts) < key_mod)%N ->
  exists g' c' ks, slerp_fit g c ts vs out = Ok (g', c', out ++ ks) /\ sane g' (s_mgr c') /\ s_pol c' = s_pol c /\
    (forall t v, In (t, v) (contents (s_mgr c')) <-> last_value (combine ts vs) t = Some v) /\
    (forall t v, last_value (combine ts vs) t = Some v -> pw_evaluate mid c' t = Ok v) /\
    (forall t, (exists a b, In a ts /\ In b ts /\ a <= t <= b) -> exists v, pw_evaluate mid c' t = Ok v) /\
    (forall t, (forall a, In a ts -> t < a) \/ (forall a, In a ts -> a < t) -> pw_evaluate mid c' t = Abort).
Proof.
  intros Hst Hl Hn Hg. destruct (filled g (clear (s_mgr c)) ts vs out (sane_clear _ _) Hl Hg)
    as (g' & m' & ks & E & [Hc' Hb'] & Hi & _).
  exists g', (Slerp m' (s_pol c)), ks. unfold slerp_fit. rewrite Hl, Nat.eqb_refl. cbn [negb].
  split. { destruct ts as [|t0 ts]; [congruence|]. cbn [slerp_clear s_mgr s_pol]. now rewrite E. }
  split; [now split|]. split; [reflexivity|]. cbn [s_mgr].
  assert (Hi' : forall t v, In (t, v) (contents m') <-> last_value (combine ts vs) t = Some v).
  { intros t v. rewrite Hi. split; [intros [X|[_ []]]; exact X|auto]. }
  split; [exact Hi'|]. split; [|split].
  - intros t v Ev. apply pw_at; auto. now apply Hi'.
  - intros t (a & b & Ha & Hb & Ht). apply pw_defined; auto; cbn [s_mgr].
    + destruct (in_last_value ts vs a Hl Ha) as (va & Ea). apply Hi' in Ea. intros X. rewrite X in Ea. destruct Ea.
    + destruct (in_last_value ts vs a Hl Ha) as (va & Ea). destruct (in_last_value ts vs b Hl Hb) as (vb & Eb).
      apply Hi' in Ea, Eb. pose proof (contents_bounds _ _ _ Hc' Ea). pose proof (contents_bounds _ _ _ Hc' Eb). lra.
  - intros t Ht. assert (Hne : contents m' <> []).
    { destruct ts as [|a ts]; [congruence|]. destruct (in_last_value (a :: ts) vs a Hl) as (va & Ea); [now left|].
      apply Hi' in Ea. intros X. rewrite X in Ea. destruct Ea. }
    apply pw_outside; auto; cbn [s_mgr].
    destruct (Rle_dec (min_time m') t) as [A|A]; [|left; lra].
    destruct (Rle_dec t (max_time m')) as [B|B]; [|right; lra]. exfalso.
    destruct (proj1 (range_by_points m' t Hc' Hne)) as (ta & va & tb & vb & Ha & Hb & Ht'); [lra|].
    apply Hi', last_value_in in Ha. apply Hi', last_value_in in Hb.
    destruct Ht as [Ht|Ht]; [specialize (Ht _ Ha)|specialize (Ht _ Hb)]; lra.
Qed.

(** setCurve *)
Lemma set_general (mid : @middle R V) g (c : curve) ts vs : starts mid -> sane g (s_mgr c) ->
  length ts = length vs -> (g + N.of_nat (length ts) < key_mod)%N ->
  exists g' c', slerp_set_curve g c ts vs = Ok (g', c') /\ sane g' (s_mgr c') /\ s_pol c' = s_pol c /\
    (forall t v, In (t, v) (contents (s_mgr c')) <->
       last_value (combine ts vs) t = Some v \/ (~ In t ts /\ In (t, v) (contents (s_mgr c)))) /\
    (forall t k v, holds (s_mgr c) t k v -> exists v', holds (s_mgr c') t k v') /\
    (forall t v, last_value (combine ts vs) t = Some v -> pw_evaluate mid c' t = Ok v) /\
    (forall ta va tb vb, adjacent (contents (s_mgr c)) (ta, va) (tb, vb) ->
       (forall s, In s ts -> s < ta \/ tb < s) -> forall t, ta <= t <= tb -> pw_evaluate mid c' t = pw_evaluate mid c t).
Proof.
  intros Hst Hs Hl Hg. destruct (filled g (s_mgr c) ts vs [] Hs Hl Hg)
    as (g' & m' & ks & E & [Hc' Hb'] & Hi & Hk). destruct Hs as [Hc Hb].
  exists g', (Slerp m' (s_pol c)). unfold slerp_set_curve. rewrite Hl, Nat.eqb_refl. cbn [negb].
  assert (Hnone : forall t, last_value (combine ts vs) t = None <-> ~ In t ts).
  { intros t. split.
    - intros X Hin. destruct (in_last_value ts vs t Hl Hin) as (v & Ev). congruence.
    - intros X. destruct (last_value (combine ts vs) t) eqn:El; [|reflexivity].
      exfalso. apply X. now apply (last_value_in _ _ _ _ El). }
  split.
  { destruct ts as [|t0 ts].
    - unfold insert_coefficients in E. rewrite Hl, Nat.eqb_refl in E. cbn in E. injection E as <- <- _. now destruct c.
    - cbn [s_mgr]. now rewrite E. }
  split; [now split|]. split; [reflexivity|]. cbn [s_mgr].
  split; [intros t v; now rewrite Hi, Hnone|]. split; [exact Hk|]. split.
  - intros t v Ev. apply pw_at; auto. apply Hi. now left.
  - intros ta va tb vb Hadj Hout t Ht. pose proof Hadj as (u & w & Eu).
    pose proof (consistent_incr _ _ _ _ _ _ _ Hc Eu) as Hlt.
    assert (Ia : In (ta, va) (contents (s_mgr c))) by (rewrite Eu, in_app_iff; simpl; auto).
    assert (Ib : In (tb, vb) (contents (s_mgr c))) by (rewrite Eu, in_app_iff; simpl; auto).
    assert (Na : ~ In ta ts) by (intros X; destruct (Hout _ X); lra).
    assert (Nb : ~ In tb ts) by (intros X; destruct (Hout _ X); lra).
    assert (Ia' : In (ta, va) (contents m')) by (apply Hi; right; split; [now apply Hnone|exact Ia]).
    assert (Ib' : In (tb, vb) (contents m')) by (apply Hi; right; split; [now apply Hnone|exact Ib]).
    assert (Hadj' : adjacent (contents m') (ta, va) (tb, vb)).
    { apply adjacent_of_in; auto. intros s v Hin Hb1. apply Hi in Hin as [X|[_ X]].
      - apply last_value_in in X. destruct (Hout _ X); lra.
      - exact (adjacent_none _ _ _ _ _ _ _ Hc Hadj X Hb1). }
    destruct (Req_dec t ta) as [->|Xa]; [|destruct (Req_dec t tb) as [->|Xb]].
    + rewrite (pw_at mid c ta va), (pw_at mid (Slerp m' (s_pol c)) ta va); auto.
    + rewrite (pw_at mid c tb vb), (pw_at mid (Slerp m' (s_pol c)) tb vb); auto.
    + destruct Hadj' as (u' & w' & Eu').
      rewrite (pw_between mid c u ta va tb vb w t), (pw_between mid (Slerp m' (s_pol c)) u' ta va tb vb w' t); auto; lra.
Qed.

End General.

(** ** C75: fitCurve and setCurve *)

Section Filling.
Context {V : Type} `{GroupLaws V}.
Local Notation curve := (@slerp_curve R V).

(** fitCurve forgets what was on the curve, whatever that was.  The curve passes through
    the given values, the last one if a time is given twice, and has a value exactly
    from the first to the last given time, in whatever order they are. *)
Theorem C75_fit : forall W (vexp : W -> V) vlog vscale g (c : curve) ts vs out,
  exp_log vexp vlog vscale -> length ts = length vs -> ts <> [] -> (g + N.of_nat (length ts) < 2 ^ 64)%N ->
  exists g' c' ks, slerp_fit g c ts vs out = Ok (g', c', out ++ ks) /\ sane g' (s_mgr c') /\
    (forall t v, In (t, v) (contents (s_mgr c')) <-> last_value (combine ts vs) t = Some v) /\
    (forall t v, last_value (combine ts vs) t = Some v -> semi_evaluate vexp vlog vscale c' t = Ok v) /\
    (forall t, (exists a b, In a ts /\ In b ts /\ a <= t <= b) -> exists v, semi_evaluate vexp vlog vscale c' t = Ok v) /\
    (forall t, (forall a, In a ts -> t < a) \/ (forall a, In a ts -> a < t) ->
       semi_evaluate vexp vlog vscale c' t = Abort).
Proof.
  intros W vexp vlog vscale g c ts vs out Hel Hl Hn Hg.
  destruct (fit_general (blended vexp vlog vscale) g c ts vs out) as (g' & c' & ks & A & B & _ & D); auto.
  { now apply blended_starts. }
  exists g', c', ks. auto.
Qed.

Theorem C75_fit_discrete : forall g (c : curve) ts vs out,
  length ts = length vs -> ts <> [] -> (g + N.of_nat (length ts) < 2 ^ 64)%N ->
  exists g' c' ks, slerp_fit g c ts vs out = Ok (g', c', out ++ ks) /\ sane g' (s_mgr c') /\
    (forall t v, In (t, v) (contents (s_mgr c')) <-> last_value (combine ts vs) t = Some v) /\
    (forall t v, last_value (combine ts vs) t = Some v -> disc_evaluate c' t = Ok v) /\
    (forall t, (exists a b, In a ts /\ In b ts /\ a <= t <= b) -> exists v, disc_evaluate c' t = Ok v) /\
    (forall t, (forall a, In a ts -> t < a) \/ (forall a, In a ts -> a < t) -> disc_evaluate c' t = Abort).
Proof.
  intros g c ts vs out Hl Hn Hg.
  destruct (fit_general nearer g c ts vs out) as (g' & c' & ks & A & B & _ & D); auto; [apply nearer_starts|].
  exists g', c', ks. auto.
Qed.

(** setCurve does not clear: coefficients at other times stay, times already on the
    curve keep their key, and the curve does not change between two coefficients
    if no given time is there. *)
Theorem C75_set : forall W (vexp : W -> V) vlog vscale g (c : curve) ts vs,
  exp_log vexp vlog vscale -> sane g (s_mgr c) -> length ts = length vs -> (g + N.of_nat (length ts) < 2 ^ 64)%N ->
  exists g' c', slerp_set_curve g c ts vs = Ok (g', c') /\ sane g' (s_mgr c') /\ s_pol c' = s_pol c /\
    (forall t v, In (t, v) (contents (s_mgr c')) <->
       last_value (combine ts vs) t = Some v \/ (~ In t ts /\ In (t, v) (contents (s_mgr c)))) /\
    (forall t k v, holds (s_mgr c) t k v -> exists v', holds (s_mgr c') t k v') /\
    (forall t v, last_value (combine ts vs) t = Some v -> semi_evaluate vexp vlog vscale c' t = Ok v) /\
    (forall ta va tb vb, adjacent (contents (s_mgr c)) (ta, va) (tb, vb) ->
       (forall s, In s ts -> s < ta \/ tb < s) -> forall t, ta <= t <= tb ->
       semi_evaluate vexp vlog vscale c' t = semi_evaluate vexp vlog vscale c t).
Proof.
  intros W vexp vlog vscale g c ts vs Hel Hs Hl Hg.
  apply (set_general (blended vexp vlog vscale)); auto. now apply blended_starts.
Qed.

Theorem C75_set_discrete : forall g (c : curve) ts vs,
  sane g (s_mgr c) -> length ts = length vs -> (g + N.of_nat (length ts) < 2 ^ 64)%N ->
  exists g' c', slerp_set_curve g c ts vs = Ok (g', c') /\ sane g' (s_mgr c') /\ s_pol c' = s_pol c /\
    (forall t v, In (t, v) (contents (s_mgr c')) <->
       last_value (combine ts vs) t = Some v \/ (~ In t ts /\ In (t, v) (contents (s_mgr c)))) /\
    (forall t k v, holds (s_mgr c) t k v -> exists v', holds (s_mgr c') t k v') /\
    (forall t v, last_value (combine ts vs) t = Some v -> disc_evaluate c' t = Ok v) /\
    (forall ta va tb vb, adjacent (contents (s_mgr c)) (ta, va) (tb, vb) ->
       (forall s, In s ts -> s < ta \/ tb < s) -> forall t, ta <= t <= tb -> disc_evaluate c' t = disc_evaluate c t).
Proof. intros g c ts vs Hs Hl Hg. apply (set_general nearer); auto. apply nearer_starts. Qed.

(** Neither of them accepts lists of different length, and neither changes anything for
    empty lists; in particular fitting to no data does not clear the curve. *)
Theorem C75_edge : forall g (c : curve) ts vs out,
  (length ts <> length vs -> slerp_fit g c ts vs out = Abort /\ slerp_set_curve g c ts vs = Abort) /\
  (ts = [] -> vs = [] -> slerp_fit g c ts vs out = Ok (g, c, out) /\ slerp_set_curve g c ts vs = Ok (g, c)).
Proof.
  intros g c ts vs out. split.
  - intros X. unfold slerp_fit, slerp_set_curve. now rewrite (proj2 (Nat.eqb_neq _ _) X).
  - now intros -> ->.
Qed.

End Filling.

(** ** C76: adding points of the curve, and reversing it *)

(** The logarithm of a part of the way from the identity to [g] is that part of the logarithm. *)
Record principal {V W} (vexp : W -> V) (vlog : V -> W) (vscale : W -> R -> W) : Prop := {
  pr_log : forall g a, 0 <= a <= 1 -> vlog (vexp (vscale (vlog g) a)) = vscale (vlog g) a;
  pr_scale : forall w a b, vscale (vscale w a) b = vscale w (a * b)
}.

Lemma se2_principal : principal se2_exp se2_log se2_scale.
Proof.
  split; [|apply scale_scale]. intros g a Ha. apply log_exp_inverse. cbn [se2_scale w2_w]. rewrite log_w.
  pose proof (heading_bounds (p2_rot g)) as B. pose proof PI_RGT_0. set (h := heading (p2_rot g)) in *. split; nra.
Qed.

Section Refining.
Context {V : Type} `{GroupLaws V} {W : Type} (vexp : W -> V) (vlog : V -> W) (vscale : W -> R -> W).
Hypothesis Hel : exp_log vexp vlog vscale.
Hypothesis Hpr : principal vexp vlog vscale.
Local Notation curve := (@slerp_curve R V).
Local Notation ev := (semi_evaluate vexp vlog vscale).
Local Notation bl := (blended vexp vlog vscale).

Lemma blended_head ta va tb vb s t : ta < s <= tb ->
  bl ta va s (bl ta va tb vb s) t = bl ta va tb vb t.
Proof.
  intros Hs. unfold blended at 1. unfold blended at 1. numR.
  assert (Hx : forall a b : V, gmul (ginv a) (gmul a b) = b).
  { intros a b. now rewrite gmul_assoc, ginv_l, gone_l. }
  rewrite Hx. unfold blended. numR. rewrite (pr_log _ _ _ Hpr), (pr_scale _ _ _ Hpr).
  - do 3 f_equal. field. lra.
  - split; [apply Rle_div_r|apply Rle_div_l]; lra.
Qed.

Lemma blended_tail ta va tb vb s t : ta <= s < tb ->
  bl s (bl ta va tb vb s) tb vb t = bl ta va tb vb t.
Proof.
  intros Hs. set (xi := vlog (gmul (ginv va) vb)).
  assert (Em : bl ta va tb vb s = gmul va (vexp (vscale xi ((s - ta) / (tb - ta))))) by reflexivity.
  assert (Ex : gmul (ginv (bl ta va tb vb s)) vb = vexp (vscale xi ((tb - s) / (tb - ta)))).
  { apply (gmul_cancel (bl ta va tb vb s)). rewrite ginv_cancel, Em, <- gmul_assoc, <- (el_add _ _ _ Hel).
    replace ((s - ta) / (tb - ta) + (tb - s) / (tb - ta)) with 1 by (field; lra).
    unfold xi. now rewrite (el_inverse _ _ _ Hel), ginv_cancel. }
  unfold blended at 1. rewrite Ex. unfold xi at 1. rewrite (pr_log _ _ _ Hpr), (pr_scale _ _ _ Hpr).
  - fold xi. rewrite Em, <- gmul_assoc, <- (el_add _ _ _ Hel). unfold blended. numR. fold xi. do 3 f_equal. field. lra.
  - split; [apply Rle_div_r|apply Rle_div_l]; lra.
Qed.

(** Inserting a point that is on the curve already does not change the curve, at any time. *)
Theorem C76_refine : forall g (c : curve) s v, sane g (s_mgr c) -> (g + 1 < 2 ^ 64)%N -> ev c s = Ok v ->
  exists g' m' k, insert_coefficient g (s_mgr c) s v = Ok (g', m', k) /\ sane g' m' /\ In (s, v) (contents m') /\
    forall t, ev (Slerp m' (s_pol c)) t = ev c t.
Proof.
  intros g c s v [Hc Hb] Hg Ev. destruct (pw_ok_range _ _ _ _ Hc Ev) as [Hn Hr].
  destruct (C03_insert g (s_mgr c) s v Hc Hb Hg) as (g' & m' & k & E & Hc' & Hb' & Hh & Ho & _).
  exists g', m', k. split; [exact E|]. split; [now split|].
  assert (Hi : forall t v', In (t, v') (contents m') <-> (t = s /\ v' = v) \/ (t <> s /\ In (t, v') (contents (s_mgr c)))).
  { intros t v'. destruct (Req_dec t s) as [->|Hx].
    - split.
      + intros Hi. left. split; [reflexivity|]. apply (contents_unique m' s _ _ Hc' Hi). apply holds_contents. eauto.
      + intros [[_ ->]|[X _]]; [|congruence]. apply holds_contents. eauto.
    - rewrite <- !holds_contents. assert (Hx' : teq s t = false) by (apply not_true_iff_false; rewrite teq_R; auto).
      split.
      + intros (k0 & Hk). right. split; [exact Hx|]. exists k0. now apply Ho.
      + intros [[X _]|[_ (k0 & Hk)]]; [congruence|]. exists k0. now apply Ho. }
  assert (Hst : starts bl) by (now apply blended_starts).
  split; [apply Hi; auto|]. intros t. set (c' := Slerp m' (s_pol c)).
  assert (Hn' : contents m' <> []).
  { intros X. assert (Hin : In (s, v) (contents m')) by (apply Hi; auto). rewrite X in Hin. destruct Hin. }
  (* the range is the same *)
  assert (Hrange : min_time m' <= t <= max_time m' <-> min_time (s_mgr c) <= t <= max_time (s_mgr c)).
  { rewrite (range_by_points m' t Hc' Hn'). split.
    - intros (ta & va & tb & vb & Ha & Hbb & Ht). apply Hi in Ha. apply Hi in Hbb.
      assert (A : min_time (s_mgr c) <= ta).
      { destruct Ha as [[-> _]|[_ Ha]]; [lra|]. now apply (contents_bounds _ _ _ Hc Ha). }
      assert (B : tb <= max_time (s_mgr c)).
      { destruct Hbb as [[-> _]|[_ Hbb]]; [lra|]. now apply (contents_bounds _ _ _ Hc Hbb). }
      lra.
    - intros Ht. apply (range_by_points _ t Hc Hn) in Ht as (ta & va & tb & vb & Ha & Hbb & Ht).
      exists ta. destruct (Req_dec ta s) as [Ea|Ea].
      + exists v, tb. destruct (Req_dec tb s) as [Eb|Eb].
        * exists v. split; [apply Hi; auto|]. split; [apply Hi; auto|]. exact Ht.
        * exists vb. split; [apply Hi; auto|]. split; [apply Hi; auto|]. exact Ht.
      + exists va, tb. destruct (Req_dec tb s) as [Eb|Eb].
        * exists v. split; [apply Hi; auto|]. split; [apply Hi; auto|]. exact Ht.
        * exists vb. split; [apply Hi; auto|]. split; [apply Hi; auto|]. exact Ht. }
  destruct (Rle_dec (min_time (s_mgr c)) t) as [A|A]; [destruct (Rle_dec t (max_time (s_mgr c))) as [B|B]|].
  2,3: (unfold semi_evaluate; rewrite (pw_outside bl c t), (pw_outside bl c' t); auto; try lra; cbn [c' s_mgr];
        destruct (Rle_dec (min_time m') t); [|left; lra]; destruct (Rle_dec t (max_time m')); [|right; lra];
        exfalso; destruct (proj1 Hrange); lra).
  destruct (Req_dec t s) as [->|Hts].
  { rewrite Ev. apply pw_at; auto. apply Hi. auto. }
  destruct (pw_cases (s_mgr c) t Hc Hn (conj A B)) as [(vt & Ht)|(u & ta & va & tb & vb & w & Eu & Ht)].
  { unfold semi_evaluate. rewrite (pw_at bl c t vt), (pw_at bl c' t vt); auto. apply Hi. auto. }
  assert (Ia : In (ta, va) (contents (s_mgr c))) by (rewrite Eu, in_app_iff; simpl; auto).
  assert (Ib : In (tb, vb) (contents (s_mgr c))) by (rewrite Eu, in_app_iff; simpl; auto).
  assert (Hadj : adjacent (contents (s_mgr c)) (ta, va) (tb, vb)) by (now exists u, w).
  (* values at ta and tb are unchanged even if s is one of them *)
  assert (Ia' : In (ta, va) (contents m')).
  { apply Hi. destruct (Req_dec ta s) as [Es|X]; [|auto]. left. split; [exact Es|]. rewrite Es in Ia.
    assert (Y : Ok va = Ok v) by (rewrite <- Ev; symmetry; now apply pw_at). now injection Y. }
  assert (Ib' : In (tb, vb) (contents m')).
  { apply Hi. destruct (Req_dec tb s) as [Es|X]; [|auto]. left. split; [exact Es|]. rewrite Es in Ib.
    assert (Y : Ok vb = Ok v) by (rewrite <- Ev; symmetry; now apply pw_at). now injection Y. }
  unfold semi_evaluate. rewrite (pw_between bl c u ta va tb vb w t Hc Eu Ht).
  destruct (Rlt_dec ta s) as [S1|S1]; [destruct (Rlt_dec s tb) as [S2|S2]|].
  - (* the point is inside this segment *)
    assert (Evs : v = bl ta va tb vb s).
    { unfold semi_evaluate in Ev. rewrite (pw_between bl c u ta va tb vb w s Hc Eu) in Ev by lra. now injection Ev. }
    assert (Is : In (s, v) (contents m')) by (apply Hi; auto).
    destruct (Rlt_dec t s) as [S3|S3].
    + assert (X : adjacent (contents m') (ta, va) (s, v)).
      { apply adjacent_of_in; auto. intros t' v' Hin Hb1. apply Hi in Hin as [[-> _]|[_ Hin]]; [lra|].
        apply (adjacent_none _ _ _ _ _ _ _ Hc Hadj Hin). lra. }
      destruct X as (u' & w' & X). rewrite (pw_between bl c' u' ta va s v w' t Hc' X) by lra.
      f_equal. rewrite Evs. apply blended_head. lra.
    + assert (X : adjacent (contents m') (s, v) (tb, vb)).
      { apply adjacent_of_in; auto. intros t' v' Hin Hb1. apply Hi in Hin as [[-> _]|[_ Hin]]; [lra|].
        apply (adjacent_none _ _ _ _ _ _ _ Hc Hadj Hin). lra. }
      destruct X as (u' & w' & X). rewrite (pw_between bl c' u' s v tb vb w' t Hc' X) by lra.
      f_equal. rewrite Evs. apply blended_tail. lra.
  - assert (X : adjacent (contents m') (ta, va) (tb, vb)).
    { apply adjacent_of_in; auto; [lra|]. intros t' v' Hin Hb1. apply Hi in Hin as [[-> _]|[_ Hin]]; [lra|].
      apply (adjacent_none _ _ _ _ _ _ _ Hc Hadj Hin). lra. }
    destruct X as (u' & w' & X). now rewrite (pw_between bl c' u' ta va tb vb w' t Hc' X) by lra.
  - assert (X : adjacent (contents m') (ta, va) (tb, vb)).
    { apply adjacent_of_in; auto; [lra|]. intros t' v' Hin Hb1. apply Hi in Hin as [[-> _]|[_ Hin]]; [lra|].
      apply (adjacent_none _ _ _ _ _ _ _ Hc Hadj Hin). lra. }
    destruct X as (u' & w' & X). now rewrite (pw_between bl c' u' ta va tb vb w' t Hc' X) by lra.
Qed.

(** The coefficients in reverse order at the negated times. *)
Definition backwards (l : list (R * V)) : list (R * V) := rev (map (fun x => (- fst x, snd x)) l).

(** Run backwards, the curve goes through the same poses, if between adjacent coefficients
    the logarithm of the way back is the negated one of the way there. *)
Theorem C76_reversed : forall (c c' : curve), consistent (s_mgr c) -> consistent (s_mgr c') ->
  contents (s_mgr c) <> [] -> contents (s_mgr c') = backwards (contents (s_mgr c)) ->
  (forall ta va tb vb, adjacent (contents (s_mgr c)) (ta, va) (tb, vb) ->
     vlog (ginv (gmul (ginv va) vb)) = vscale (vlog (gmul (ginv va) vb)) (-1)) ->
  forall t, ev c' (- t) = ev c t.
Proof.
  intros c c' Hc Hc' Hn Eb Hopp t.
  assert (Hst : starts bl) by (now apply blended_starts).
  assert (Hi : forall s v, In (s, v) (contents (s_mgr c)) <-> In (- s, v) (contents (s_mgr c'))).
  { intros s v. rewrite Eb. unfold backwards. rewrite <- in_rev, in_map_iff. split.
    - intros Hi. now exists (s, v).
    - intros ([s' v'] & X & Hi). cbn in X. injection X as X ->. now replace s with s' by lra. }
  assert (Hn' : contents (s_mgr c') <> []).
  { destruct (contents (s_mgr c)) as [|[s0 v0] r]; [congruence|]. intros X.
    assert (Y : In (- s0, v0) (contents (s_mgr c'))) by (apply Hi; now left). rewrite X in Y. destruct Y. }
  assert (Hrange : min_time (s_mgr c') <= - t <= max_time (s_mgr c') <-> min_time (s_mgr c) <= t <= max_time (s_mgr c)).
  { rewrite (range_by_points _ _ Hc' Hn'), (range_by_points _ _ Hc Hn). split.
    - intros (ta & va & tb & vb & Ha & Hb & Ht). exists (- tb), vb, (- ta), va.
      rewrite !Hi, !Ropp_involutive. repeat split; auto; lra.
    - intros (ta & va & tb & vb & Ha & Hb & Ht). exists (- tb), vb, (- ta), va.
      rewrite <- !Hi. repeat split; auto; lra. }
  destruct (Rle_dec (min_time (s_mgr c)) t) as [A|A]; [destruct (Rle_dec t (max_time (s_mgr c))) as [B|B]|].
  2,3: (unfold semi_evaluate; rewrite (pw_outside bl c t), (pw_outside bl c' (- t)); auto; lra).
  destruct (pw_cases (s_mgr c) t Hc Hn (conj A B)) as [(vt & Ht)|(u & ta & va & tb & vb & w & Eu & Ht)].
  { unfold semi_evaluate. rewrite (pw_at bl c t vt), (pw_at bl c' (- t) vt); auto. now apply Hi. }
  assert (Hadj : adjacent (contents (s_mgr c)) (ta, va) (tb, vb)) by (now exists u, w).
  assert (Ia : In (ta, va) (contents (s_mgr c))) by (rewrite Eu, in_app_iff; simpl; auto).
  assert (Ib : In (tb, vb) (contents (s_mgr c))) by (rewrite Eu, in_app_iff; simpl; auto).
  assert (X : adjacent (contents (s_mgr c')) (- tb, vb) (- ta, va)).
  { apply adjacent_of_in; auto; [now apply Hi|now apply Hi|lra|].
    intros t' v' Hin Hb1. rewrite <- (Ropp_involutive t') in Hin. apply Hi in Hin.
    apply (adjacent_none _ _ _ _ _ _ _ Hc Hadj Hin). lra. }
  destruct X as (u' & w' & X). unfold semi_evaluate.
  rewrite (pw_between bl c u ta va tb vb w t Hc Eu Ht), (pw_between bl c' u' (- tb) vb (- ta) va w' (- t) Hc' X) by lra.
  f_equal. unfold blended. numR. set (xi := vlog (gmul (ginv va) vb)).
  replace (gmul (ginv vb) va) with (ginv (gmul (ginv va) vb)).
  2:{ rewrite ginv_gmul. f_equal. apply (gmul_cancel (ginv va)). now rewrite ginv_r, ginv_l. }
  rewrite (Hopp _ _ _ _ Hadj), (pr_scale _ _ _ Hpr). fold xi.
  assert (Evb : vb = gmul va (vexp (vscale xi 1))).
  { unfold xi. now rewrite (el_inverse _ _ _ Hel), ginv_cancel. }
  rewrite Evb at 1. rewrite <- gmul_assoc, <- (el_add _ _ _ Hel). do 3 f_equal. field. lra.
Qed.

End Refining.

(** ** The curve in SE2 *)

Local Notation se2_curve := (@slerp_curve R pose2).
Local Notation se2_at := (semi_evaluate se2_exp se2_log se2_scale).

Theorem C76_se2_refine : forall g (c : se2_curve) s v, sane g (s_mgr c) -> (g + 1 < 2 ^ 64)%N -> se2_at c s = Ok v ->
  exists g' m' k, insert_coefficient g (s_mgr c) s v = Ok (g', m', k) /\ sane g' m' /\ In (s, v) (contents m') /\
    forall t, se2_at (Slerp m' (s_pol c)) t = se2_at c t.
Proof. exact (C76_refine _ _ _ se2_exp_log se2_principal). Qed.

Lemma se2_log_inverse (g : pose2) : heading (p2_rot g) <> PI -> se2_log (ginv g) = se2_scale (se2_log g) (-1).
Proof.
  intros Hx. pose proof (heading_bounds (p2_rot g)) as B.
  rewrite <- (log_exp_inverse (se2_scale (se2_log g) (-1))).
  - f_equal. apply (gmul_cancel g). rewrite ginv_r.
    transitivity (gmul (se2_exp (se2_scale (se2_log g) 1)) (se2_exp (se2_scale (se2_log g) (-1)))).
    + rewrite <- (el_add _ _ _ se2_exp_log). replace (1 + -1) with 0 by ring. symmetry. apply (el_zero _ _ _ se2_exp_log).
    + now rewrite (el_inverse _ _ _ se2_exp_log g).
  - cbn [se2_scale w2_w]. rewrite log_w. lra.
Qed.

(** Two poses look in opposite directions. *)
Definition opposite (a b : pose2) : Prop := rc (p2_rot b) = - rc (p2_rot a) /\ rs (p2_rot b) = - rs (p2_rot a).

Lemma opposite_heading (a b : pose2) : heading (p2_rot (gmul (ginv a) b)) = PI -> opposite a b.
Proof.
  intros Eh. pose proof (rot_heading (p2_rot (gmul (ginv a) b))) as E. rewrite Eh in E.
  pose proof (f_equal rc E) as E1. pose proof (f_equal rs E) as E2. cbn in E1, E2.
  rewrite cos_PI in E1. rewrite sin_PI in E2. pose proof (r_unit (p2_rot a)) as U.
  set (ca := rc (p2_rot a)) in *. set (sa := rs (p2_rot a)) in *.
  set (cb := rc (p2_rot b)) in *. set (sb := rs (p2_rot b)) in *. unfold opposite. fold ca sa cb sb. split.
  - transitivity ((ca * ca + sa * sa) * cb); [rewrite U; ring|].
    transitivity (ca * (ca * cb - - sa * sb) - sa * (- sa * cb + ca * sb)); [ring|]. rewrite <- E1, <- E2. ring.
  - transitivity ((ca * ca + sa * sa) * sb); [rewrite U; ring|].
    transitivity (sa * (ca * cb - - sa * sb) + ca * (- sa * cb + ca * sb)); [ring|]. rewrite <- E1, <- E2. ring.
Qed.

(** Run backwards, the curve goes through the same poses, if no two adjacent coefficients
    look in opposite directions. *)
Theorem C76_se2_reversed : forall (c c' : se2_curve), consistent (s_mgr c) -> consistent (s_mgr c') ->
  contents (s_mgr c) <> [] -> contents (s_mgr c') = backwards (contents (s_mgr c)) ->
  (forall ta va tb vb, adjacent (contents (s_mgr c)) (ta, va) (tb, vb) -> ~ opposite va vb) ->
  forall t, se2_at c' (- t) = se2_at c t.
Proof.
  intros c c' Hc Hc' Hn Eb Hop. apply (C76_reversed _ _ _ se2_exp_log se2_principal); auto.
  intros ta va tb vb Hadj. apply se2_log_inverse. intros X. apply (Hop _ _ _ _ Hadj). now apply opposite_heading.
Qed.

(** If they do, the two ways are different: both turn to the left. *)
Theorem C76_se2_reversed_refuted : exists (c c' : se2_curve) t, consistent (s_mgr c) /\ consistent (s_mgr c') /\
  contents (s_mgr c) <> [] /\ contents (s_mgr c') = backwards (contents (s_mgr c)) /\ se2_at c' (- t) <> se2_at c t.
Proof.
  set (A := Pose2 (rot_of 0) 0 0). set (B := Pose2 (rot_of PI) 0 0).
  destruct (curve_exists [(0, A); (2, B)] policy_default) as (g & c & _ & [Hc _] & Ec & _);
    [apply two_increasing; lra|reflexivity|].
  destruct (curve_exists [(- 2, B); (- 0, A)] policy_default) as (g' & c' & _ & [Hc' _] & Ec' & _);
    [apply two_increasing; lra|reflexivity|].
  exists c, c', 1. split; [exact Hc|]. split; [exact Hc'|]. split; [now rewrite Ec|]. split; [now rewrite Ec', Ec|].
  pose proof PI_RGT_0 as Hpi.
  unfold semi_evaluate. rewrite (pw_between _ c [] 0 A 2 B [] 1 Hc Ec) by lra.
  rewrite (pw_between _ c' [] (- 2) B (- 0) A [] (- 1) Hc' Ec') by lra. unfold blended. numR.
  intros X. apply (f_equal (fun o => match o with Ok P => rs (p2_rot P) | _ => 0 end)) in X. cbv beta iota in X.
  assert (Hh : forall r, heading r = PI -> heading (rot_inv r) = PI).
  { intros r Er. apply angle_unique; [apply heading_bounds|lra|]. rewrite rot_heading. rewrite <- (rot_heading r), Er.
    apply rot2_ext; cbn; rewrite ?sin_PI; ring. }
  assert (H1 : heading (p2_rot (gmul (ginv A) B)) = PI).
  { apply angle_unique; [apply heading_bounds|lra|]. rewrite rot_heading.
    apply rot2_ext; cbn; rewrite ?cos_0, ?sin_0; ring. }
  assert (H2 : heading (p2_rot (gmul (ginv B) A)) = PI).
  { apply angle_unique; [apply heading_bounds|lra|]. rewrite rot_heading.
    apply rot2_ext; cbn; rewrite ?cos_0, ?sin_0, ?sin_PI; ring. }
  assert (Hexp : forall w, p2_rot (se2_exp w) = rot_of (w2_w w)).
  { intros w. unfold se2_exp. cbv zeta. destruct (Req_EM_T (w2_w w) 0) as [E|E]; cbn [p2_rot]; [now rewrite E|reflexivity]. }
  cbn [gmul pose2_GroupOps pose2_mul p2_rot] in X. rewrite !Hexp in X. cbn [se2_scale w2_w] in X. rewrite !log_w in X.
  cbn [gmul pose2_GroupOps] in H1, H2. rewrite H1, H2 in X.
  replace (PI * ((-1 - -2) / (- 0 - -2))) with (PI / 2) in X by field.
  replace (PI * ((1 - 0) / (2 - 0))) with (PI / 2) in X by field.
  cbn in X. rewrite cos_0, sin_0, cos_PI, sin_PI, cos_PI2, sin_PI2 in X. lra.
Qed.

(** ** The hypotheses can be met *)

Section Examples.
Existing Instance R_GroupOps.
Existing Instance R_GroupLaws.

(** Times out of order, one of them given twice. *)
Example C75_example : exists g' (c' : @slerp_curve R R) ks,
  slerp_fit 0 (Slerp mgr_empty policy_default) [2; 0; 2] [5; 1; 7] [] = Ok (g', c', ks) /\ sane g' (s_mgr c') /\
  semi_evaluate id_R id_R Rmult c' 2 = Ok 7 /\ semi_evaluate id_R id_R Rmult c' 0 = Ok 1 /\
  semi_evaluate id_R id_R Rmult c' 3 = Abort.
Proof.
  destruct (C75_fit R id_R id_R Rmult 0%N (Slerp mgr_empty policy_default) [2; 0; 2] [5; 1; 7] []
    R_exp_log eq_refl) as (g' & c' & ks & E & Hs & _ & Hv & _ & Ho); [discriminate|reflexivity|].
  exists g', c', ks. split; [exact E|]. split; [exact Hs|].
  assert (T1 : teq 2 2 = true) by (now apply teq_R). assert (T2 : teq 0 0 = true) by (now apply teq_R).
  assert (T3 : teq 2 0 = false) by (apply not_true_iff_false; rewrite teq_R; lra).
  split; [|split].
  - apply Hv. cbn [combine last_value]. now rewrite T1.
  - apply Hv. cbn [combine last_value]. now rewrite T2, T3.
  - apply Ho. right. simpl. intros a [<-|[<-|[<-|[]]]]; lra.
Qed.

(** Setting the value at time 2 on the curve through 10, 20, 30, 40 at 0, 1, 2, 3. *)
Example C75_set_example : exists g (c : @slerp_curve R R) g' c',
  sane g (s_mgr c) /\ contents (s_mgr c) = [(0, 10); (1, 20); (2, 30); (3, 40)] /\
  slerp_set_curve g c [2] [35] = Ok (g', c') /\
  semi_evaluate id_R id_R Rmult c' 2 = Ok 35 /\
  semi_evaluate id_R id_R Rmult c' (1 / 2) = semi_evaluate id_R id_R Rmult c (1 / 2) /\
  In (3, 40) (contents (s_mgr c')).
Proof.
  destruct (curve_exists [(0, 10); (1, 20); (2, 30); (3, 40)] policy_default) as (g & c & Eg & Hs & Ec & _);
    [simpl; repeat split; auto; apply Rltb_lt; lra|reflexivity|].
  destruct (C75_set R id_R id_R Rmult g c [2] [35] R_exp_log Hs eq_refl)
    as (g' & c' & E & _ & _ & Hi & _ & Hv & Hl); [rewrite Eg; reflexivity|].
  exists g, c, g', c'. split; [exact Hs|]. split; [exact Ec|]. split; [exact E|].
  assert (T1 : teq 2 2 = true) by (now apply teq_R). split; [|split].
  - apply Hv. cbn [combine last_value]. now rewrite T1.
  - apply (Hl 0 10 1 20); [|intros s [<-|[]]; lra|lra]. rewrite Ec. now exists [], [(2, 30); (3, 40)].
  - apply Hi. right. split; [intros [X|[]]; lra|]. rewrite Ec. simpl. auto.
Qed.

Example C75_discrete_example :
  (exists g' (c' : @slerp_curve R R) ks,
     slerp_fit 0 (Slerp mgr_empty policy_default) [2; 0] [5; 1] [] = Ok (g', c', ks) /\ disc_evaluate c' 2 = Ok 5) /\
  (exists g (c : @slerp_curve R R) g' c', sane g (s_mgr c) /\ contents (s_mgr c) = [(0, 1); (2, 5)] /\
     slerp_set_curve g c [2] [8] = Ok (g', c') /\ disc_evaluate c' 2 = Ok 8).
Proof.
  assert (T1 : teq 2 2 = true) by (now apply teq_R).
  assert (T3 : teq 0 2 = false) by (apply not_true_iff_false; rewrite teq_R; lra). split.
  - destruct (C75_fit_discrete 0%N (Slerp mgr_empty policy_default) [2; 0] [5; 1] [] eq_refl)
      as (g' & c' & ks & E & _ & _ & Hv & _); [discriminate|reflexivity|].
    exists g', c', ks. split; [exact E|]. apply Hv. cbn [combine last_value]. now rewrite T3, T1.
  - destruct (curve_exists [(0, 1); (2, 5)] policy_default) as (g & c & Eg & Hs & Ec & _);
      [apply two_increasing; lra|reflexivity|].
    destruct (C75_set_discrete g c [2] [8] Hs eq_refl) as (g' & c' & E & _ & _ & _ & _ & Hv & _); [rewrite Eg; reflexivity|].
    exists g, c, g', c'. split; [exact Hs|]. split; [exact Ec|]. split; [exact E|].
    apply Hv. cbn [combine last_value]. now rewrite T1.
Qed.

(** A quarter turn to the left on a circle, with the pose after a third of the time inserted. *)
Example C76_example : exists g (c : se2_curve) v g' m' k,
  sane g (s_mgr c) /\ contents (s_mgr c) = [(0, Pose2 (rot_of 0) 0 0); (3, Pose2 (rot_of (PI / 2)) 1 1)] /\
  se2_at c 1 = Ok v /\ insert_coefficient g (s_mgr c) 1 v = Ok (g', m', k) /\
  forall t, se2_at (Slerp m' (s_pol c)) t = se2_at c t.
Proof.
  set (A := Pose2 (rot_of 0) 0 0). set (B := Pose2 (rot_of (PI / 2)) 1 1).
  destruct (curve_exists [(0, A); (3, B)] policy_default) as (g & c & Eg & Hs & Ec & _);
    [apply two_increasing; lra|reflexivity|].
  assert (Ev : exists v, se2_at c 1 = Ok v).
  { eexists. apply (pw_between _ c [] 0 A 3 B []); [apply Hs|exact Ec|lra]. }
  destruct Ev as (v & Ev).
  destruct (C76_se2_refine g c 1 v Hs) as (g' & m' & k & E & _ & _ & Ht); [rewrite Eg; reflexivity|exact Ev|].
  exists g, c, v, g', m', k. auto.
Qed.

(** A curve and its reversal. *)
Example C76_reversed_example : exists (c c' : se2_curve),
  consistent (s_mgr c) /\ contents (s_mgr c) = [(0, Pose2 (rot_of 0) 0 0); (3, Pose2 (rot_of (PI / 2)) 1 1)] /\
  consistent (s_mgr c') /\ contents (s_mgr c') = backwards (contents (s_mgr c)) /\
  forall t, se2_at c' (- t) = se2_at c t.
Proof.
  set (A := Pose2 (rot_of 0) 0 0). set (B := Pose2 (rot_of (PI / 2)) 1 1).
  destruct (curve_exists [(0, A); (3, B)] policy_default) as (g & c & _ & [Hc _] & Ec & _);
    [apply two_increasing; lra|reflexivity|].
  destruct (curve_exists [(- 3, B); (- 0, A)] policy_default) as (g' & c' & _ & [Hc' _] & Ec' & _);
    [apply two_increasing; lra|reflexivity|].
  exists c, c'. split; [exact Hc|]. split; [exact Ec|]. split; [exact Hc'|]. split; [now rewrite Ec, Ec'|].
  apply C76_se2_reversed; auto; [now rewrite Ec|now rewrite Ec, Ec'|].
  intros ta va tb vb (u & w & Ew). rewrite Ec in Ew. destruct u as [|x [|y [|z u]]]; try discriminate.
  injection Ew as _ <- _ <- _. intros [X _]. cbn in X. rewrite cos_0, cos_PI2 in X. lra.
Qed.

End Examples.
