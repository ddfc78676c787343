(** * C15 - C17, C53, C54: down-sampling when a curve is extended *)

From Coq Require Import List Bool Arith NArith ZArith Lia Permutation Sorting.Sorted.
From Verif Require Import Base TimeOrder TimeInst KeyGen Manager ManagerSpec ManagerProofs
  ManagerProofs2 ManagerProofs3 Sampling SamplingSpec SamplingProofs.
Import ListNotations.

Section Slerp.
Context {T V : Type} `{TimeLaws T}.
Local Notation curve := (slerp_curve T V).

Lemma sane_new {C} g : sane g (@mgr_empty T C).
Proof. split; [|constructor]. split; constructor. Qed.

(** ** C15 *)

(** Feeding measurements one by one to a new curve with sampling ratio [n]
    succeeds.  Afterwards exactly the measurements with number 0, 1, 1+n, 1+2n, ...
    (numbering from 0) and the newest one are on the curve. *)
Theorem C15_kept_measurements : forall (n : Z) (ms : list (T * V)) (g : N) (out : list N),
  (1 <= n < 2 ^ 31)%Z -> increasing ms -> (g + N.of_nat (length ms) < 2 ^ 64)%N ->
  exists g' c' out', slerp_feed g (slerp_set_ratio slerp_new n) ms out = Ok (g', c', out') /\
    consistent (s_mgr c') /\
    contents (s_mgr c') =
      select (fun i => (i <? 2) || ((i - 1) mod Z.to_nat n =? 0) || (i =? length ms - 1)) ms.
Proof.
  intros n ms g out Hn Hinc Hg.
  destruct (slerp_feed_spec g (slerp_set_ratio slerp_new n) n out ms) as
    (g' & c' & out' & E & Hs & _ & _ & _ & Ec); auto.
  - unfold int_max. lia.
  - apply sane_new.
  - exists g', c', out'. split; auto. split; [apply Hs|]. exact Ec.
Qed.

(** The number of coefficients, the newest one and the first two. *)
Theorem C15_count_and_newest : forall (n : Z) (ms : list (T * V)) (g g' : N) (out out' : list N) c',
  (1 <= n < 2 ^ 31)%Z -> increasing ms -> (g + N.of_nat (length ms) < 2 ^ 64)%N ->
  slerp_feed g (slerp_set_ratio slerp_new n) ms out = Ok (g', c', out') ->
  let m := length ms in
  size (s_mgr c') = Nat.min m 2 + ceil_div (m - 2) (Z.to_nat n) /\
  (forall l t v, ms = l ++ [(t, v)] ->
     (exists l', contents (s_mgr c') = l' ++ [(t, v)]) /\ max_time (s_mgr c') = t) /\
  (forall a b r, ms = a :: b :: r -> exists r', contents (s_mgr c') = a :: b :: r').
Proof.
  intros n ms g g' out out' c' Hn Hinc Hg E0 m.
  destruct (slerp_feed_spec g (slerp_set_ratio slerp_new n) n out ms) as
    (g1 & c1 & out1 & E & Hs & _ & _ & _ & Ec); auto.
  { unfold int_max. lia. } { apply sane_new. }
  rewrite E in E0. injection E0 as <- <- <-.
  split; [rewrite contents_size, Ec; apply slerp_kept_count; lia|]. split.
  - intros l t v ->. rewrite slerp_kept_snoc in Ec. split; [eauto|].
    now apply (contents_max _ _ _ _ Ec).
  - intros a b r Em. rewrite Em in Ec. unfold select in Ec. simpl in Ec. eauto.
Qed.

(** ** C16 *)

(** Ratio 1, at least two coefficients: a measurement that is not newer aborts,
    and nothing but that makes a single measurement abort. *)
Theorem C16_ratio_one : forall g (c : curve) t v out,
  consistent (s_mgr c) -> keys_below g (s_mgr c) -> (g + 1 < 2 ^ 64)%N ->
  p_min (s_pol c) = 1%Z -> 2 <= size (s_mgr c) ->
  (tle t (max_time (s_mgr c)) = true -> slerp_extend g c [t] [v] out = Abort) /\
  (tlt (max_time (s_mgr c)) t = true ->
     exists c', slerp_extend g c [t] [v] out = Ok ((g + 1)%N, c', out ++ [(g + 1)%N]) /\
       contents (s_mgr c') = contents (s_mgr c) ++ [(t, v)]).
Proof.
  intros g c t v out Hc Hb Hg Hm Hsz.
  assert (Eb : empty (s_mgr c) || (size (s_mgr c) =? 1) = false).
  { unfold size, empty in *. destruct (nodes (s_mgr c)) as [|? [|? ?]]; simpl in *; auto; lia. }
  unfold slerp_extend. cbn [length Nat.eqb negb]. rewrite Eb. unfold slerp_extend_one.
  rewrite Hm. cbn [Z.eqb Pos.eqb]. split; intros Ht.
  - unfold add_coefficient_at_end. rewrite ?tle_def in Ht. rewrite negb_true_iff in Ht. now rewrite Ht.
  - destruct (end_add g (s_mgr c) t v out (conj Hc Hb) Hg) as (m' & -> & _ & Ec); auto.
    { intros E. apply contents_nil in E. unfold size in Hsz. rewrite E in Hsz. simpl in Hsz. lia. }
    cbn [bind]. eauto.
Qed.

(** With fewer than two coefficients, or with several measurements at once, no
    order is required. *)
Theorem C16_unordered_accepted : forall g (c : curve) ts vs out,
  consistent (s_mgr c) -> keys_below g (s_mgr c) -> (g + N.of_nat (length ts) < 2 ^ 64)%N ->
  length ts = length vs -> size (s_mgr c) < 2 \/ length ts <> 1 ->
  exists g' c' out', slerp_extend g c ts vs out = Ok (g', c', out') /\ consistent (s_mgr c') /\
    s_pol c' = s_pol c /\
    forall t v, last_value (combine ts vs) t = Some v -> exists k, holds (s_mgr c') t k v.
Proof.
  intros g c ts vs out Hc Hb Hg Hl Hd.
  assert (E : slerp_extend g c ts vs out =
    let* (g', m', out') := insert_coefficients g (s_mgr c) ts vs out in
    Ok (g', Slerp m' (s_pol c), out')).
  { unfold slerp_extend. apply Nat.eqb_eq in Hl. rewrite Hl. cbn [negb].
    destruct ts as [|t [|t' ts]], vs as [|v [|v' vs]]; auto; try discriminate.
    assert (Eb : empty (s_mgr c) || (size (s_mgr c) =? 1) = true).
    { unfold size, empty in *. destruct (nodes (s_mgr c)) as [|? [|? ?]]; simpl in *; auto; lia. }
    now rewrite Eb. }
  rewrite E. unfold insert_coefficients. rewrite Hl, Nat.eqb_refl.
  assert (Lc : length (combine ts vs) = length ts) by (rewrite combine_length; lia).
  destruct (insert_loop_spec (combine ts vs) g (s_mgr c) out Hc Hb) as
    (g' & m' & ks & -> & Hc' & _ & _ & _ & _ & _ & _ & _ & Hv & _).
  { rewrite Lc. exact Hg. }
  cbn [bind]. do 3 eexists. split; [reflexivity|]. cbn [s_mgr s_pol]. auto.
Qed.

(** Down-sampling phase (ratio other than 1, some measurement already taken since
    the last permanent one): a measurement with the time of the newest coefficient
    is accepted, removes that coefficient, does not store the new value, and makes
    the key of the removed coefficient dangle: any look-up with it is undefined. *)
Theorem C16_repeated_time_destroys : forall g (c : curve) l t0 v0 t v out,
  consistent (s_mgr c) -> 2 <= size (s_mgr c) ->
  p_min (s_pol c) <> 1%Z -> (0 < p_count (s_pol c) < 2 ^ 31 - 1)%Z ->
  contents (s_mgr c) = l ++ [(t0, v0)] -> teq t0 t = true ->
  exists c' k, slerp_extend g c [t] [v] out = Ok (g, c', out) /\
    holds (s_mgr c) t0 k v0 /\ size (s_mgr c) = S (size (s_mgr c')) /\
    ~ present (s_mgr c') t /\
    get_coefficient_by_key (s_mgr c') k = UB.
Proof.
  intros g c l t0 v0 t v out Hc Hsz Hm Hcnt Hcon Ht.
  assert (Eb : empty (s_mgr c) || (size (s_mgr c) =? 1) = false).
  { unfold size, empty in *. destruct (nodes (s_mgr c)) as [|? [|? ?]]; simpl in *; auto; lia. }
  destruct (contents_last _ _ _ _ Hcon) as (n & El & Hi & En & Ev).
  unfold slerp_extend. cbn [length Nat.eqb negb]. rewrite Eb. unfold slerp_extend_one.
  apply Z.eqb_neq in Hm. rewrite Hm. unfold count_up, int_max.
  destruct (Z.eqb_spec (p_count (s_pol c)) (2 ^ 31 - 1)); [lia|]. cbn [bind p_count p_min].
  destruct (Z.eqb_spec (p_count (s_pol c) + 1) 1); [lia|].
  rewrite El. destruct (move_own_time (s_mgr c) n t v Hc Hi) as (m' & -> & Hs & Hh & Hk & _).
  { now rewrite En. }
  cbn [bind]. do 2 eexists. split; [reflexivity|]. cbn [s_mgr].
  split; [exists n; rewrite En, teq_refl; auto|]. split; auto. split; [|exact Hk].
  intros (k & x & Hx). apply Hh in Hx as [Hx _]. rewrite teq_refl in Hx. discriminate.
Qed.

(** ** C54: sampling ratio zero (or negative) *)

(** Slerp: the ratio is never reached, so that everything after the second
    measurement ends up in one coefficient. *)
Lemma slerp_zero_feed : forall (n : Z) (ms : list (T * V)) (g : N) (out : list N),
  (n <= 0)%Z -> increasing ms -> (g + N.of_nat (length ms) < key_mod)%N ->
  (Z.of_nat (length ms) <= 2 + int_max)%Z ->
  exists g' c' out', slerp_feed g (slerp_set_ratio slerp_new n) ms out = Ok (g', c', out') /\
    sane g' (s_mgr c') /\ (g <= g' <= g + N.of_nat (length ms))%N /\ p_min (s_pol c') = n /\
    p_count (s_pol c') = Z.of_nat (length ms - 2) /\
    contents (s_mgr c') = firstn 2 ms ++ match rev (skipn 2 ms) with [] => [] | x :: _ => [x] end.
Proof.
  intros n ms g out Hn. induction ms as [|x ms IH] using rev_ind; intros Hinc Hg Hcap.
  { do 3 eexists. split; [reflexivity|]. split; [apply sane_new|]. split; [simpl; lia|]. auto. }
  rewrite app_length in Hg, Hcap. cbn [length] in Hg, Hcap.
  destruct IH as (g1 & c1 & out1 & E1 & Hs1 & Hg1 & Hm1 & Hp1 & Hc1);
    [now apply increasing_prefix in Hinc|lia|lia|].
  assert (Ef : slerp_feed g (slerp_set_ratio slerp_new n) (ms ++ [x]) out =
               slerp_extend g1 c1 [fst x] [snd x] out1).
  { unfold slerp_feed in *. rewrite foldM_app, E1. cbn [bind foldM]. cbn beta iota.
    destruct (slerp_extend g1 c1 [fst x] [snd x] out1); reflexivity. }
  rewrite Ef. clear Ef E1. unfold slerp_extend. cbn [length Nat.eqb negb].
  assert (Hlt : ms <> [] -> tlt (max_time (s_mgr c1)) (fst x) = true).
  { intros Hne. destruct ms as [|y ms _] using rev_ind; [congruence|].
    rewrite <- app_assoc in Hinc. apply increasing_snoc in Hinc as [_ Hinc].
    assert (X : exists l, contents (s_mgr c1) = l ++ [y]).
    { rewrite Hc1. destruct ms as [|a [|b ms]]; cbn [app firstn skipn rev]; [exists [] | exists [a] |]; auto.
      rewrite rev_app_distr. cbn [rev app]. exists [a; b]. reflexivity. }
    destruct X as [l X]. destruct y as [ty vy]. now rewrite (contents_max _ _ _ _ X). }
  rewrite !app_length. cbn [length].
  destruct ms as [|a [|b ms]].
  - cbn [firstn skipn rev app] in Hc1. rewrite contents_empty, Hc1. cbn [orb].
    rewrite insert_one.
    destruct (end_insert g1 (s_mgr c1) (fst x) (snd x) Hs1) as (m' & -> & Hs' & Hc'); auto; [lia|].
    cbn [bind]. do 3 eexists. split; [reflexivity|]. cbn [s_mgr s_pol].
    split; auto. split; [cbn [length] in *; lia|]. split; auto. split; [exact Hp1|].
    rewrite Hc', Hc1. now destruct x.
  - cbn [firstn skipn rev app] in Hc1. rewrite contents_empty, contents_size, Hc1. cbn [orb length Nat.eqb].
    rewrite insert_one.
    destruct (end_insert g1 (s_mgr c1) (fst x) (snd x) Hs1) as (m' & -> & Hs' & Hc');
      [lia | right; apply Hlt; congruence |].
    cbn [bind]. do 3 eexists. split; [reflexivity|]. cbn [s_mgr s_pol].
    split; auto. split; [cbn [length] in *; lia|]. split; auto. split; [exact Hp1|].
    rewrite Hc', Hc1. now destruct x.
  - cbn [firstn skipn] in Hc1.
    assert (Eb : empty (s_mgr c1) || (size (s_mgr c1) =? 1) = false).
    { rewrite contents_empty, contents_size, Hc1. reflexivity. }
    rewrite Eb. unfold slerp_extend_one. rewrite Hm1.
    destruct (Z.eqb_spec n 1); [lia|]. unfold count_up. rewrite Hp1.
    cbn [length] in Hcap.
    destruct (Z.eqb_spec (Z.of_nat (length (a :: b :: ms) - 2)) int_max) as [E|_]; [cbn [length] in E; lia|].
    cbn [bind p_count p_min]. rewrite Hm1.
    destruct (Z.eqb_spec (Z.of_nat (length (a :: b :: ms) - 2) + 1) n) as [E|_]; [lia|].
    destruct ms as [|y ms _] using rev_ind.
    + cbn [rev app] in Hc1. cbn [length Nat.sub Z.of_nat Z.add Z.eqb Pos.eqb].
      destruct (end_add g1 (s_mgr c1) (fst x) (snd x) out1 Hs1) as (m' & -> & Hs' & Hc');
        [lia | rewrite Hc1; congruence | apply Hlt; congruence |].
      cbn [bind]. do 3 eexists. split; [reflexivity|]. cbn [s_mgr s_pol].
      split; auto. split; [cbn [length] in *; lia|]. split; auto. split; [reflexivity|].
      rewrite Hc', Hc1. now destruct x.
    + rewrite rev_app_distr in Hc1. cbn [rev app] in Hc1. 
      destruct (Z.eqb_spec (Z.of_nat (length (a :: b :: ms ++ [y]) - 2) + 1) 1) as [E|_].
      { cbn [length] in E. rewrite app_length in E. cbn [length] in E. lia. }
      destruct y as [ty vy]. change (a :: b :: [(ty, vy)]) with ([a; b] ++ [(ty, vy)]) in Hc1.
      destruct (contents_last _ _ _ _ Hc1) as (k & Ek & _). rewrite Ek.
      destruct (end_move g1 (s_mgr c1) _ _ _ (fst x) (snd x) k Hs1 Hc1 Ek) as (m' & -> & Hs' & Hc').
      { rewrite <- (contents_max _ _ _ _ Hc1). apply Hlt. congruence. }
      cbn [bind]. do 3 eexists. split; [reflexivity|]. cbn [s_mgr s_pol].
      split; auto. split; [cbn [length] in *; lia|]. split; [reflexivity|].
      split; [cbn [p_count length]; rewrite !app_length; cbn [length]; lia|].
      cbn [app firstn skipn]. rewrite rev_app_distr. cbn [rev app]. rewrite Hc'. now destruct x.
Qed.

Theorem C54_slerp_ratio_zero : forall (n : Z) (ms : list (T * V)) (g : N) (out : list N),
  (n <= 0)%Z -> increasing ms -> (g + N.of_nat (length ms) < 2 ^ 64)%N ->
  (Z.of_nat (length ms) <= 2 ^ 31 + 1)%Z ->
  exists g' c' out', slerp_feed g (slerp_set_ratio slerp_new n) ms out = Ok (g', c', out') /\
    contents (s_mgr c') = firstn 2 ms ++ match rev (skipn 2 ms) with [] => [] | x :: _ => [x] end.
Proof.
  intros n ms g out Hn Hinc Hg Hcap.
  destruct (slerp_zero_feed n ms g out Hn Hinc Hg) as (g' & c' & out' & E & _ & _ & _ & _ & Hc);
    [unfold int_max; lia|eauto].
Qed.

(** One measurement more overflows the counter. *)
Theorem C54_slerp_ratio_zero_overflow : forall (n : Z) (ms : list (T * V)) x (g : N) (out : list N),
  (n <= 0)%Z -> increasing ms -> (g + N.of_nat (length ms) < 2 ^ 64)%N ->
  (Z.of_nat (length ms) = 2 ^ 31 + 1)%Z ->
  slerp_feed g (slerp_set_ratio slerp_new n) (ms ++ [x]) out = UB.
Proof.
  intros n ms x g out Hn Hinc Hg Hcap.
  destruct (slerp_zero_feed n ms g out Hn Hinc Hg) as (g' & c' & out' & E & _ & _ & Hm & Hp & Hc);
    [unfold int_max; lia|].
  unfold slerp_feed in *. rewrite foldM_app, E. cbn [bind foldM]. cbn beta iota.
  unfold slerp_extend. cbn [length Nat.eqb negb].
  assert (Eb : empty (s_mgr c') || (size (s_mgr c') =? 1) = false).
  { rewrite contents_empty, contents_size, Hc. destruct ms as [|a [|b ms]]; cbn [length] in Hcap; try lia.
    reflexivity. }
  rewrite Eb. unfold slerp_extend_one. rewrite Hm. destruct (Z.eqb_spec n 1); [lia|].
  unfold count_up. rewrite Hp.
  destruct (Z.eqb_spec (Z.of_nat (length ms - 2)) int_max) as [_|X]; [reflexivity|].
  exfalso. apply X. unfold int_max. lia.
Qed.
End Slerp.

Section Hermite.
Context {T V D : Type} `{TimeLaws T}.
Variable dzero : D.
Variable slope : T -> T -> V -> V -> D.
Variable tadd : T -> T -> T.
Local Notation curve := (hermite_curve T V D).
Local Notation extend := (hermite_extend dzero slope tadd).

(** ** C17 *)

Lemma hinv_new g n p :
  hinv dzero slope g (hermite_set_period (hermite_set_ratio (@hermite_new T _ V D) n) p) n p [] [].
Proof.
  split; auto; try reflexivity.
  - split; [|constructor]. split; constructor.
  - intros l y E. now apply app_cons_not_nil in E.
Qed.

(** Any period: the curve consists of the permanent measurements, with central
    differences as derivatives, followed by the newest measurement if that is
    not permanent.  A measurement becomes permanent when at least [n] others
    were taken since the last permanent one and the period has passed. *)
Theorem C17_curve : forall (n : Z) (p : T) (ms : list (T * V)) (g : N),
  (1 <= n)%Z -> increasing ms -> (g + N.of_nat (length ms) < 2 ^ 64)%N ->
  (Z.of_nat (length ms) < 2 ^ 31)%Z ->
  exists c', extend g (hermite_set_period (hermite_set_ratio hermite_new n) p)
      (map fst ms) (map snd ms) = Ok ((g + N.of_nat (length ms))%N, c') /\
    consistent (h_mgr c') /\
    let (perm, pending) := sampled tadd (Z.to_nat n) p ms in
    contents (h_mgr c') = knots dzero slope perm ++ temporary dzero slope perm pending.
Proof.
  intros n p ms g Hn Hinc Hg Hcap.
  destruct (hermite_feed_spec dzero slope tadd n p ms g _ Hn (hinv_new g n p) Hg Hinc) as (c' & E & Hi).
  - intros a x b Em. cbn zeta. left.
    pose proof (sampled_shape tadd (Z.to_nat n) p a) as Hsh.
    destruct (sampled tadd (Z.to_nat n) p a) as [perm pending]. cbn [snd].
    assert (L : length pending <= length a).
    { destruct Hsh as [(-> & -> & ->)|(p0 & y & l & -> & ->)]; [lia|].
      rewrite app_length. cbn [length]. lia. }
    rewrite Em, app_length in Hcap. cbn [length] in Hcap. unfold int_max. lia.
  - exists c'. split; auto. destruct Hi as [[Hc _] _ _ _ Hcon _ _]. split; auto.
    destruct (sampled tadd (Z.to_nat n) p ms). exact Hcon.
Qed.

(** The newest measurement is the last coefficient and the first one is the
    first coefficient; permanent measurements are more than the period and at
    least [n] measurements apart. *)
Theorem C17_newest_and_spacing : forall (n : Z) (p : T) (ms : list (T * V)) (g : N) g' c',
  (1 <= n)%Z -> increasing ms -> (g + N.of_nat (length ms) < 2 ^ 64)%N ->
  (Z.of_nat (length ms) < 2 ^ 31)%Z ->
  extend g (hermite_set_period (hermite_set_ratio hermite_new n) p)
    (map fst ms) (map snd ms) = Ok (g', c') ->
  (forall l t v, ms = l ++ [(t, v)] ->
     exists l' d, contents (h_mgr c') = l' ++ [(t, (v, d))] /\ max_time (h_mgr c') = t) /\
  (forall t v r, ms = (t, v) :: r -> exists d r', contents (h_mgr c') = (t, (v, d)) :: r') /\
  (exists perm, (forall l a b r, perm = l ++ a :: b :: r ->
       tlt (tadd (fst a) p) (fst b) = true /\
       exists u mid v, ms = u ++ a :: mid ++ b :: v /\ Z.to_nat n <= length mid) /\
     exists rest, contents (h_mgr c') = knots dzero slope perm ++ rest /\ length rest <= 1).
Proof.
  intros n p ms g g' c' Hn Hinc Hg Hcap E0.
  destruct (C17_curve n p ms g Hn Hinc Hg Hcap) as (c1 & E & _ & Hcon).
  rewrite E in E0. injection E0 as <- <-.
  pose proof (sampled_shape tadd (Z.to_nat n) p ms) as Hsh.
  pose proof (sampled_spacing tadd (Z.to_nat n) p ms) as Hsp.
  assert (Hfirst : forall a r, ms = a :: r -> exists r', fst (sampled tadd (Z.to_nat n) p ms) = a :: r').
  { intros a r ->. clear. assert (X : forall xs s, (exists r', fst s = a :: r') ->
      exists r', fst (fold_left (sample tadd (Z.to_nat n) p) xs s) = a :: r').
    { induction xs as [|x xs IH]; intros s Hs; [exact Hs|]. cbn [fold_left]. apply IH.
      destruct s as [perm pending]. destruct Hs as [r' Hs]. cbn [fst] in Hs. unfold sample.
      destruct (rev perm) as [|y q] eqn:Er.
      - cbn [fst]. rewrite Hs. cbn [app]. eauto.
      - destruct (_ && _); cbn [fst]; rewrite Hs; cbn [app]; eauto. }
    unfold sampled. cbn [fold_left]. apply X. unfold sample at 1. simpl. eauto. }
  destruct (sampled tadd (Z.to_nat n) p ms) as [perm pending]. cbn [fst] in Hfirst.
  split; [|split].
  - intros l t v ->. destruct Hsh as [(X & _)|(p0 & y & l0 & -> & Em)].
    { symmetry in X. now apply app_cons_not_nil in X. }
    destruct (knots_snoc dzero slope p0 y) as (L & Ek & _). rewrite Ek in Hcon.
    destruct pending as [|e r _] using rev_ind.
    + apply app_inj_tail in Em as [_ <-]. rewrite temporary_nil, app_nil_r in Hcon.
      exists L. eexists. split; [exact Hcon|]. now apply contents_max in Hcon.
    + change (y :: r ++ [e]) with ((y :: r) ++ [e]) in Em. rewrite app_assoc in Em.
      apply app_inj_tail in Em as [_ <-]. rewrite temporary_snoc in Hcon.
      do 2 eexists. split; [exact Hcon|]. now apply contents_max in Hcon.
  - intros t v r Em. destruct (Hfirst _ _ Em) as [r' ->].
    unfold knots in Hcon. cbn [knots_from app fst snd] in Hcon. eauto.
  - exists perm. split; [exact Hsp|]. eexists. split; [exact Hcon|].
    unfold temporary. destruct (rev pending), (rev perm); simpl; lia.
Qed.

(** No period: the permanent measurements are those with numbers 0, n+1, 2(n+1), ...
    and the number of coefficients follows.  There is no limit on the number of
    measurements here. *)
Theorem C17_count_without_period : forall (n : Z) (p : T) (ms : list (T * V)) (g : N),
  (1 <= n < 2 ^ 31)%Z -> (forall t, tadd t p = t) -> ms <> [] -> increasing ms ->
  (g + N.of_nat (length ms) < 2 ^ 64)%N ->
  exists c', extend g (hermite_set_period (hermite_set_ratio hermite_new n) p)
      (map fst ms) (map snd ms) = Ok ((g + N.of_nat (length ms))%N, c') /\
    consistent (h_mgr c') /\
    map (fun k => (fst k, fst (snd k))) (contents (h_mgr c')) =
      select (fun i => (i mod (S (Z.to_nat n)) =? 0) || (i =? length ms - 1)) ms /\
    size (h_mgr c') = 1 + ceil_div (length ms - 1) (Z.to_nat n + 1).
Proof.
  intros n p ms g Hn Hp Hne Hinc Hg.
  destruct (hermite_feed_spec dzero slope tadd n p ms g _ ltac:(lia) (hinv_new g n p) Hg Hinc) as (c' & E & Hi).
  { intros a x b Em. cbn zeta.
    assert (Hinca : increasing (a ++ [x])).
    { rewrite Em in Hinc. change (x :: b) with ([x] ++ b) in Hinc. rewrite app_assoc in Hinc.
      now apply increasing_prefix in Hinc. }
    destruct (sampled_no_period tadd (Z.to_nat n) p a Hp) as [_ El];
      [now apply increasing_prefix in Hinca|].
    pose proof (Nat.mod_upper_bound (length a - 1) (S (Z.to_nat n)) ltac:(lia)) as Hu.
    rewrite El. unfold int_max.
    destruct (Z.lt_ge_cases (Z.of_nat ((length a - 1) mod S (Z.to_nat n))) n) as [L|L]; [left; lia|].
    right. split; [lia|]. split; [lia|]. intros l y Ey.
    pose proof (sampled_shape tadd (Z.to_nat n) p a) as Hsh.
    destruct (sampled tadd (Z.to_nat n) p a) as [perm pending]. cbn [fst] in Ey.
    rewrite Hp. destruct Hsh as [(-> & -> & ->)|(p0 & y0 & l0 & -> & ->)].
    - now apply app_cons_not_nil in Ey.
    - apply app_inj_tail in Ey as [_ ->]. rewrite <- app_assoc in Hinca.
      apply increasing_suffix in Hinca. cbn [app] in Hinca. now apply increasing_ends in Hinca. }
  exists c'. split; auto. destruct Hi as [[Hc _] _ _ _ Hcon _ _]. split; auto.
  destruct (sampled_no_period tadd (Z.to_nat n) p ms Hp Hinc) as [Ep El].
  pose proof (sampled_shape tadd (Z.to_nat n) p ms) as Hsh.
  destruct (sampled tadd (Z.to_nat n) p ms) as [perm pending]. cbn [fst snd] in *.
  assert (Hpne : perm <> []).
  { destruct Hsh as [(X & _)|(p0 & y & l & -> & _)]; [congruence|].
    intros X. symmetry in X. now apply app_cons_not_nil in X. }
  split.
  - rewrite Hcon, map_app, temporary_data by auto. unfold knots. rewrite knots_data.
    destruct ms as [|x ms _] using rev_ind; [congruence|].
    assert (Ea : select (fun i => (i mod S (Z.to_nat n) =? 0) || (i =? length (ms ++ [x]) - 1)) (ms ++ [x])
       = select (fun i => i mod S (Z.to_nat n) =? 0) ms ++ [x]).
    { rewrite select_snoc, app_length. cbn [length]. f_equal.
      - apply select_ext. intros i Hi'. destruct (Nat.eqb_spec i (length ms + 1 - 1)); [lia|].
        now rewrite orb_false_r.
      - replace (length ms + 1 - 1) with (length ms) by lia. now rewrite Nat.eqb_refl, orb_true_r. }
    rewrite Ea. rewrite Ep, select_snoc.
    rewrite app_length in El. cbn [length] in El. replace (length ms + 1 - 1) with (length ms) in El by lia.
    destruct (Nat.eqb_spec (length ms mod S (Z.to_nat n)) 0) as [E0|E0].
    + rewrite E0 in El. destruct pending; [|discriminate]. now rewrite app_nil_r.
    + rewrite app_nil_r. destruct pending as [|e r _] using rev_ind; [cbn [length] in El; lia|].
      rewrite rev_app_distr. cbn [rev app]. f_equal.
      destruct Hsh as [(X & _)|(p0 & y & l & _ & Em)]; [congruence|].
      change (y :: r ++ [e]) with ((y :: r) ++ [e]) in Em. rewrite app_assoc in Em.
      now apply app_inj_tail in Em as [_ ->].
  - rewrite contents_size, Hcon, app_length, temporary_length by auto.
    unfold knots. rewrite knots_length, Ep, every_count by auto.
    rewrite ceil_div_spec by lia. replace (Z.to_nat n + 1) with (S (Z.to_nat n)) by lia.
    rewrite El. lia.
Qed.

(** A measurement that is not newer than a non-empty curve aborts, whatever the state. *)
Theorem C17_not_newer_aborts : forall g (c : curve) t v,
  nodes (h_mgr c) <> [] -> tle t (max_time (h_mgr c)) = true ->
  extend g c [t] [v] = Abort.
Proof.
  intros g c t v Hne Ht. cbn [hermite_extend]. unfold hermite_extend_one.
  rewrite ?tle_def in Ht. rewrite negb_true_iff in Ht. rewrite Ht. unfold empty.
  destruct (nodes (h_mgr c)); [congruence|]. reflexivity.
Qed.

(** ** C53: extending after a fit *)

(** The fit does not reset the counter of the policy.  If it is zero, the next
    measurement is appended and all fitted points are kept. *)
Theorem C53_fresh_counter_keeps_fit : forall g (c : curve) ts vs d0 d1 out t v,
  length ts = length vs -> ts <> [] -> increasing (combine ts vs ++ [(t, v)]) ->
  (g + N.of_nat (length ts) + 1 < 2 ^ 64)%N ->
  p_count (h_pol c) = 0%Z -> (1 <= p_min (h_pol c))%Z ->
  exists g1 c1 out1 g2 c2 d,
    hermite_fit_with_derivatives slope g c ts vs d0 d1 out = Ok (g1, c1, out1) /\
    extend g1 c1 [t] [v] = Ok (g2, c2) /\
    contents (h_mgr c2) = contents (h_mgr c1) ++ [(t, (v, d))].
Proof.
  intros g c ts vs d0 d1 out t v Hl Hne Hinc Hg Hcnt Hmin.
  destruct (hermite_fit_spec slope g c ts vs d0 d1 out Hl) as (m1 & ks & E1 & Hs1 & Hc1);
    [now apply increasing_prefix in Hinc | unfold key_mod; lia |].
  set (cs := fit_coefficients slope d0 d1 None (combine ts vs)) in *.
  assert (Lc : length ts = length cs).
  { unfold cs. rewrite fit_coefficients_length, combine_length. lia. }
  destruct ts as [|tl ts' _] using rev_ind; [congruence|].
  destruct cs as [|cl cs' _] using rev_ind; [rewrite app_length in Lc; simpl in Lc; lia|].
  rewrite !app_length in Lc. cbn [length] in Lc.
  rewrite combine_snoc in Hc1 by lia.
  assert (Hlt : tlt tl t = true).
  { destruct vs as [|vl vs' _] using rev_ind; [rewrite app_length in Hl; simpl in Hl; lia|].
    rewrite !app_length in Hl. cbn [length] in Hl. rewrite combine_snoc in Hinc by lia.
    rewrite <- app_assoc in Hinc. apply increasing_snoc in Hinc. apply Hinc. }
  destruct (contents_last _ _ _ _ Hc1) as (k & Ek & _ & _ & Bk).
  destruct (end_insert (g + N.of_nat (length (ts' ++ [tl]))) m1 t (v, snd cl) Hs1)
    as (m2 & E2 & _ & Hc2); [unfold key_mod; lia | right; now rewrite (contents_max _ _ _ _ Hc1)|].
  do 6 eexists. split; [exact E1|]. split.
  - cbn [hermite_extend]. unfold hermite_extend_one. cbn [h_mgr h_pol].
    rewrite (contents_max _ _ _ _ Hc1), Hlt. cbn [orb negb].
    rewrite contents_empty, Hc1. destruct (combine ts' cs' ++ [(tl, cl)]) eqn:X;
      [symmetry in X; now apply app_cons_not_nil in X|].
    rewrite Hcnt. destruct (Z.leb_spec (p_min (h_pol c)) 0); [lia|]. cbn [andb].
    unfold interpolation_extend. cbn [h_mgr h_pol]. rewrite Ek, Hcnt. cbn [Z.eqb bind].
    unfold count_up. rewrite Hcnt. cbn [Z.eqb int_max bind]. rewrite Bk, E2. cbn [bind]. reflexivity.
  - cbn [h_mgr]. rewrite Hc2. reflexivity.
Qed.

(** If the counter is left over from before the fit (and below the ratio), the
    last fitted point is deleted by the next measurement. *)
Theorem C53_stale_counter_deletes_last_point : forall g (c : curve) ts vs d0 d1 out t v,
  length ts = length vs -> 2 <= length ts -> increasing (combine ts vs ++ [(t, v)]) ->
  (g + N.of_nat (length ts) + 1 < 2 ^ 64)%N ->
  (0 < p_count (h_pol c) < p_min (h_pol c))%Z -> (p_min (h_pol c) < 2 ^ 31)%Z ->
  exists g1 c1 out1 g2 c2 a b d,
    hermite_fit_with_derivatives slope g c ts vs d0 d1 out = Ok (g1, c1, out1) /\
    contents (h_mgr c1) = a ++ [b] /\
    extend g1 c1 [t] [v] = Ok (g2, c2) /\
    contents (h_mgr c2) = a ++ [(t, (v, d))].
Proof.
  intros g c ts vs d0 d1 out t v Hl Hne Hinc Hg Hcnt Hmin.
  destruct (hermite_fit_spec slope g c ts vs d0 d1 out Hl) as (m1 & ks & E1 & Hs1 & Hc1);
    [now apply increasing_prefix in Hinc | unfold key_mod; lia |].
  set (cs := fit_coefficients slope d0 d1 None (combine ts vs)) in *.
  assert (Lc : length ts = length cs).
  { unfold cs. rewrite fit_coefficients_length, combine_length. lia. }
  destruct ts as [|tl ts' _] using rev_ind; [cbn in Hne; lia|].
  destruct ts' as [|tk ts' _] using rev_ind; [cbn in Hne; lia|].
  destruct cs as [|cl cs' _] using rev_ind; [rewrite !app_length in Lc; simpl in Lc; lia|].
  destruct cs' as [|ck cs' _] using rev_ind; [rewrite !app_length in Lc; simpl in Lc; lia|].
  rewrite !app_length in Lc. cbn [length] in Lc.
  rewrite !combine_snoc in Hc1 by (rewrite ?app_length; cbn [length]; lia).
  destruct vs as [|vl vs' _] using rev_ind; [rewrite !app_length in Hl; simpl in Hl; lia|].
  destruct vs' as [|vk vs' _] using rev_ind; [rewrite !app_length in Hl; simpl in Hl; lia|].
  rewrite !app_length in Hl. cbn [length] in Hl.
  rewrite !combine_snoc in Hinc by (rewrite ?app_length; cbn [length]; lia).
  assert (Hlt : tlt tl t = true /\ tlt tk t = true).
  { rewrite <- !app_assoc in Hinc. apply increasing_suffix in Hinc. cbn in Hinc.
    destruct Hinc as [A [B _]]. split; [exact B|]. now apply (tlt_trans _ tl). }
  destruct Hlt as [Hlt Hlt2].
  destruct (contents_last _ _ _ _ Hc1) as (k & Ek & _ & Ak & Bk).
  pose proof Hc1 as Hc1'. rewrite <- app_assoc in Hc1'. cbn [app] in Hc1'.
  destruct (contents_pair _ _ _ _ _ _ Hc1') as (n0 & n1 & Eg & _ & A0 & B0 & A1 & B1).
  destruct (end_remove _ m1 _ _ _ Hs1 Hc1) as (m2 & E2 & Hs2 & Hc2).
  destruct (end_insert (g + N.of_nat (length ((ts' ++ [tk]) ++ [tl]))) m2 t (v, slope tk t (fst ck) v) Hs2)
    as (m3 & E3 & _ & Hc3); [unfold key_mod; lia | right; now rewrite (contents_max _ _ _ _ Hc2)|].
  do 8 eexists. split; [exact E1|]. split; [exact Hc1|]. split.
  - cbn [hermite_extend]. unfold hermite_extend_one. cbn [h_mgr h_pol].
    rewrite (contents_max _ _ _ _ Hc1), Hlt. cbn [orb negb].
    rewrite contents_empty, Hc1. destruct ((combine ts' cs' ++ [(tk, ck)]) ++ [(tl, cl)]) eqn:X;
      [symmetry in X; now apply app_cons_not_nil in X|].
    destruct (Z.leb_spec (p_min (h_pol c)) (p_count (h_pol c))); [lia|]. cbn [andb].
    unfold interpolation_extend. cbn [h_mgr h_pol]. rewrite Ek.
    destruct (Z.eqb_spec (p_count (h_pol c)) 0); [lia|].
    rewrite Ak, Eg, A1, E2, A0, B0. cbn [bind].
    unfold count_up. destruct (Z.eqb_spec (p_count (h_pol c)) int_max) as [Ei|_]; [unfold int_max in Ei; lia|].
    cbn [bind]. rewrite E3. cbn [bind]. reflexivity.
  - cbn [h_mgr]. rewrite Hc3, Hc2. reflexivity.
Qed.

(** On a fit with a single point the left over counter makes the code read
    iterators that were never set. *)
Theorem C53_stale_counter_one_point : forall g (c : curve) t0 v0 d0 d1 out t v,
  tlt t0 t = true -> (g + 1 < 2 ^ 64)%N ->
  (0 < p_count (h_pol c) < p_min (h_pol c))%Z ->
  exists g1 c1 out1,
    hermite_fit_with_derivatives slope g c [t0] [v0] d0 d1 out = Ok (g1, c1, out1) /\
    extend g1 c1 [t] [v] = UB.
Proof.
  intros g c t0 v0 d0 d1 out t v Hlt Hg Hcnt.
  destruct (hermite_fit_spec slope g c [t0] [v0] d0 d1 out eq_refl) as (m1 & ks & E1 & Hs1 & Hc1);
    [cbn; auto | exact Hg |].
  do 3 eexists. split; [exact E1|]. cbn [combine fit_coefficients] in Hc1.
  change [(t0, (v0, d0))] with ([] ++ [(t0, (v0, d0))]) in Hc1.
  destruct (contents_last _ _ _ _ Hc1) as (k & Ek & _ & Ak & Bk).
  cbn [hermite_extend]. unfold hermite_extend_one. cbn [h_mgr h_pol].
  rewrite (contents_max _ _ _ _ Hc1), Hlt. cbn [orb negb].
  rewrite contents_empty, Hc1. cbn [app].
  destruct (Z.leb_spec (p_min (h_pol c)) (p_count (h_pol c))); [lia|]. cbn [andb].
  unfold interpolation_extend. cbn [h_mgr h_pol]. rewrite Ek.
  destruct (Z.eqb_spec (p_count (h_pol c)) 0); [lia|].
  assert (Eg : get_coefficients_at m1 (n_time k) = None).
  { destruct (get_coefficients_at m1 (n_time k)) as [[n0 n1]|] eqn:Eg; auto.
    destruct (proj1 (get_at_domain m1 (n_time k) (proj1 Hs1)) (ex_intro _ _ Eg)) as [Hsz _].
    rewrite contents_size, Hc1 in Hsz. cbn in Hsz. lia. }
  rewrite Eg. reflexivity.
Qed.

(** ** C54 for the Hermite policy: with a ratio of zero (or less) and no period the
    curve never has more than one coefficient. *)
Theorem C54_hermite_ratio_zero : forall (n : Z) (p : T) (ms : list (T * V)) t v (g : N),
  (n <= 0)%Z -> (forall t, tadd t p = t) -> increasing (ms ++ [(t, v)]) ->
  (g + N.of_nat (length ms) + 1 < 2 ^ 64)%N ->
  exists c', extend g (hermite_set_period (hermite_set_ratio hermite_new n) p)
      (map fst (ms ++ [(t, v)])) (map snd (ms ++ [(t, v)])) = Ok ((g + N.of_nat (length ms) + 1)%N, c') /\
    contents (h_mgr c') = [(t, (v, dzero))].
Proof.
  intros n p ms t v g Hn Hp Hinc Hg.
  assert (X : exists c', extend g (hermite_set_period (hermite_set_ratio hermite_new n) p)
      (map fst (ms ++ [(t, v)])) (map snd (ms ++ [(t, v)])) = Ok ((g + N.of_nat (length ms) + 1)%N, c') /\
    contents (h_mgr c') = [(t, (v, dzero))] /\ sane (g + N.of_nat (length ms) + 1) (h_mgr c') /\
    h_pol c' = Policy 0 n p t); [|destruct X as (c' & A & B & _); eauto].
  revert t v Hinc. induction ms as [|[t1 v1] ms IH] using rev_ind; intros t v Hinc.
  - cbn [length N.of_nat] in Hg. rewrite N.add_0_r in Hg. rewrite N.add_0_r.
    cbn [app map fst snd hermite_extend length N.of_nat]. unfold hermite_extend_one.
    cbn [hermite_set_period hermite_set_ratio h_mgr h_pol hermite_new empty mgr_empty nodes].
    rewrite orb_true_r. cbn [negb]. unfold default_extend.
    cbn [hermite_set_period hermite_set_ratio hermite_new h_mgr h_pol nodes mgr_empty bind p_min p_period].
    destruct (end_insert g mgr_empty t (v, dzero) (sane_new g)) as (m2 & -> & Hs2 & Hc2);
      [exact Hg | auto |].
    cbn [bind]. eexists. split; [reflexivity|]. auto.
  - rewrite app_length in Hg. cbn [length] in Hg.
    destruct IH with (t := t1) (v := v1) as (c1 & E1 & Hc1 & Hs1 & Hp1);
      [lia | now apply increasing_prefix in Hinc |].
    rewrite (map_app fst (ms ++ [(t1, v1)])), (map_app snd (ms ++ [(t1, v1)])).
    rewrite hermite_extend_app, E1 by now rewrite !map_length.
    cbn [bind map fst snd hermite_extend]. clear E1.
    assert (Hlt : tlt t1 t = true).
    { rewrite <- app_assoc in Hinc. apply increasing_snoc in Hinc. apply Hinc. }
    change [(t1, (v1, dzero))] with ([] ++ [(t1, (v1, dzero))]) in Hc1.
    unfold hermite_extend_one. rewrite (contents_max _ _ _ _ Hc1), Hlt. cbn [orb negb].
    rewrite contents_empty, Hc1. cbn [app]. rewrite Hp1. cbn [p_min p_count p_last p_period].
    rewrite Hp, Hlt. destruct (Z.leb_spec n 0); [|lia]. cbn [andb].
    destruct (contents_last _ _ _ _ Hc1) as (k & -> & _ & -> & _).
    destruct (end_remove _ (h_mgr c1) _ _ _ Hs1 Hc1) as (m2 & -> & Hs2 & Hc2).
    cbn [bind]. unfold default_extend. cbn [h_mgr h_pol]. pose proof Hc2 as Hc2'.
    apply contents_nil in Hc2'. rewrite Hc2'. cbn [bind].
    rewrite app_length. cbn [length].
    replace (g + N.of_nat (length ms + 1) + 1)%N with (g + N.of_nat (length ms) + 1 + 1)%N by lia.
    destruct (end_insert (g + N.of_nat (length ms) + 1) m2 t (v, dzero) Hs2) as (m3 & -> & Hs3 & Hc3);
      [unfold key_mod; lia | auto |].
    cbn [bind]. eexists. split; [reflexivity|]. cbn [h_mgr h_pol p_min p_period].
    rewrite Hc3, Hc2. auto.
Qed.

End Hermite.

(** ** Examples *)

Section Examples.
Definition ex_ms (k : nat) : list (Z * nat) := map (fun i => (Z.of_nat i, i)) (seq 1 k).

Lemma ex_ms_increasing k : increasing (ex_ms k).
Proof.
  unfold ex_ms. generalize 1 as s. induction k as [|k IH]; intros s; [exact I|].
  cbn [seq map increasing]. split; [|apply IH]. destruct k; [exact I|].
  cbn [seq map]. cbn. apply Z.ltb_lt. lia.
Qed.

Lemma ex_ms_length k : length (ex_ms k) = k.
Proof. unfold ex_ms. now rewrite map_length, seq_length. Qed.

(** Nine measurements with ratio 3: numbers 0, 1, 4, 7 and the newest, 8. *)
Example C15_example : exists g' c' out',
  slerp_feed 0%N (slerp_set_ratio slerp_new 3) (ex_ms 9) [] = Ok (g', c', out') /\
  increasing (ex_ms 9) /\ get_times (s_mgr c') = [1; 2; 5; 8; 9]%Z.
Proof. do 3 eexists. split; [vm_compute; reflexivity|]. split; [apply ex_ms_increasing|reflexivity]. Qed.

(** Ratio 1 with two coefficients. *)
Example C16_ratio_one_example : exists g' c' out',
  slerp_feed 0%N slerp_new (ex_ms 2) [] = Ok (g', c', out') /\
  p_min (s_pol c') = 1%Z /\ 2 <= size (s_mgr c') /\
  slerp_extend g' c' [2%Z] [0] out' = Abort.
Proof. do 3 eexists. split; [vm_compute; reflexivity|]. split; [reflexivity|]. split; [vm_compute; auto|reflexivity]. Qed.

(** A history of extend calls after which a key returned by extend is dangling. *)
Theorem C16_key_lookup_after_extend_refuted :
  exists (ms : list (Z * nat)) g' c' out' k,
    slerp_feed 0%N (slerp_set_ratio slerp_new 2) ms [] = Ok (g', c', out') /\
    In k out' /\ get_coefficient_by_key (s_mgr c') k = UB.
Proof.
  exists [(1%Z, 0); (2%Z, 0); (3%Z, 0); (3%Z, 0)]. do 4 eexists.
  split; [vm_compute; reflexivity|]. split; [right; right; left; reflexivity|]. reflexivity.
Qed.

(** The hypotheses of [C16_repeated_time_destroys]. *)
Example C16_repeated_example : exists g' c' out',
  slerp_feed 0%N (slerp_set_ratio slerp_new 3) (ex_ms 3) [] = Ok (g', c', out') /\
  p_min (s_pol c') <> 1%Z /\ (0 < p_count (s_pol c') < 2 ^ 31 - 1)%Z /\
  contents (s_mgr c') = [(1%Z, 1); (2%Z, 2)] ++ [(3%Z, 3)].
Proof.
  do 3 eexists. split; [vm_compute; reflexivity|]. split; [discriminate|].
  split; [vm_compute; auto|reflexivity].
Qed.

(** Clearing the curve does not reset the counter: the same measurements give a
    different curve than on a new one. *)
Theorem C16_clear_is_not_new_refuted :
  exists (ms1 ms2 : list (Z * nat)) g1 c1 out1 g2 c2 out2 g3 c3 out3,
    increasing ms1 /\ increasing ms2 /\
    slerp_feed 0%N (slerp_set_ratio slerp_new 3) ms1 [] = Ok (g1, c1, out1) /\
    slerp_feed g1 (slerp_clear c1) ms2 [] = Ok (g2, c2, out2) /\
    slerp_feed g1 (slerp_set_ratio slerp_new 3) ms2 [] = Ok (g3, c3, out3) /\
    contents (s_mgr c2) <> contents (s_mgr c3).
Proof.
  exists (ex_ms 3), (ex_ms 3). do 9 eexists.
  split; [apply ex_ms_increasing|]. split; [apply ex_ms_increasing|].
  split; [vm_compute; reflexivity|]. split; [vm_compute; reflexivity|].
  split; [vm_compute; reflexivity|]. vm_compute. discriminate.
Qed.

(** Slope of integers valued curves, for the examples. *)
Definition ex_slope (a b : Z) (x y : nat) : Z * nat * Z * nat := (a, x, b, y).
Definition ex_zero : Z * nat * Z * nat := (0%Z, 0, 0%Z, 0).

Example C17_example : exists g' c',
  hermite_extend ex_zero ex_slope Z.add 0%N (hermite_set_period (hermite_set_ratio hermite_new 2) 0%Z)
    (map fst (ex_ms 6)) (map snd (ex_ms 6)) = Ok (g', c') /\
  contents (h_mgr c') =
    [(1%Z, (1, (1%Z, 1, 4%Z, 4))); (4%Z, (4, (1%Z, 1, 4%Z, 4))); (6%Z, (6, (4%Z, 4, 6%Z, 6)))].
Proof. do 2 eexists. split; [vm_compute; reflexivity|]. reflexivity. Qed.

(** With a period of 3 the second permanent measurement has to be later than 1+3. *)
Example C17_period_example : exists g' c',
  hermite_extend ex_zero ex_slope Z.add 0%N (hermite_set_period (hermite_set_ratio hermite_new 2) 3%Z)
    (map fst (ex_ms 6)) (map snd (ex_ms 6)) = Ok (g', c') /\
  get_times (h_mgr c') = [1; 5; 6]%Z.
Proof. do 2 eexists. split; [vm_compute; reflexivity|]. reflexivity. Qed.

Example C17_abort_example : exists g' c',
  hermite_extend ex_zero ex_slope Z.add 0%N hermite_new (map fst (ex_ms 3)) (map snd (ex_ms 3)) = Ok (g', c') /\
  nodes (h_mgr c') <> [] /\ tle 3%Z (max_time (h_mgr c')) = true.
Proof. do 2 eexists. split; [vm_compute; reflexivity|]. split; [discriminate|reflexivity]. Qed.

(** A curve whose counter is not zero, reached by extending a new one. *)
Example C53_stale_example : exists g' c',
  hermite_extend ex_zero ex_slope Z.add 0%N hermite_new (map fst (ex_ms 3)) (map snd (ex_ms 3)) = Ok (g', c') /\
  (0 < p_count (h_pol c') < p_min (h_pol c'))%Z /\
  (exists g1 c1 out1, hermite_fit_with_derivatives ex_slope g' c' [10; 11; 12]%Z [0; 1; 2] ex_zero ex_zero []
     = Ok (g1, c1, out1) /\ get_times (h_mgr c1) = [10; 11; 12]%Z /\
   exists g2 c2, hermite_extend ex_zero ex_slope Z.add g1 c1 [13%Z] [3] = Ok (g2, c2) /\
     get_times (h_mgr c2) = [10; 11; 13]%Z).
Proof.
  do 2 eexists. split; [vm_compute; reflexivity|]. split; [vm_compute; auto|].
  do 3 eexists. split; [vm_compute; reflexivity|]. split; [reflexivity|].
  do 2 eexists. split; [vm_compute; reflexivity|]. reflexivity.
Qed.

Example C53_fresh_example :
  p_count (h_pol (@hermite_new Z _ nat Z)) = 0%Z /\ (1 <= p_min (h_pol (@hermite_new Z _ nat Z)))%Z /\
  increasing (combine [10; 11]%Z [0; 1] ++ [(12%Z, 2)]).
Proof. repeat split. vm_compute. discriminate. Qed.

(** The hypotheses of the overflow theorem can be met. *)
Example C54_overflow_example : exists ms : list (Z * nat),
  increasing ms /\ (Z.of_nat (length ms) = 2 ^ 31 + 1)%Z.
Proof.
  exists (ex_ms (Z.to_nat (2 ^ 31 + 1))). split; [apply ex_ms_increasing|].
  rewrite ex_ms_length. apply Z2Nat.id. discriminate.
Qed.

Example C54_example : exists g' c' out' g2 c2,
  slerp_feed 0%N (slerp_set_ratio slerp_new 0) (ex_ms 7) [] = Ok (g', c', out') /\
  get_times (s_mgr c') = [1; 2; 7]%Z /\
  hermite_extend ex_zero ex_slope Z.add 0%N (hermite_set_period (hermite_set_ratio hermite_new 0) 0%Z)
    (map fst (ex_ms 7)) (map snd (ex_ms 7)) = Ok (g2, c2) /\
  get_times (h_mgr c2) = [7]%Z.
Proof.
  do 5 eexists. split; [vm_compute; reflexivity|]. split; [reflexivity|].
  split; [vm_compute; reflexivity|]. reflexivity.
Qed.
End Examples.

Print Assumptions C15_kept_measurements.
Print Assumptions C15_count_and_newest.
Print Assumptions C16_ratio_one.
Print Assumptions C16_unordered_accepted.
Print Assumptions C16_repeated_time_destroys.
Print Assumptions C16_key_lookup_after_extend_refuted.
Print Assumptions C16_clear_is_not_new_refuted.
Print Assumptions C17_curve.
Print Assumptions C17_newest_and_spacing.
Print Assumptions C17_count_without_period.
Print Assumptions C17_not_newer_aborts.
Print Assumptions C53_fresh_counter_keeps_fit.
Print Assumptions C53_stale_counter_deletes_last_point.
Print Assumptions C53_stale_counter_one_point.
Print Assumptions C54_slerp_ratio_zero.
Print Assumptions C54_slerp_ratio_zero_overflow.
Print Assumptions C54_hermite_ratio_zero.
