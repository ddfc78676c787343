(** * C02 - C14: the coefficient manager

    The theorems hold for every type of times with a strict weak order; the
    instances for the reals and for IEEE doubles are in [TimeInst.v] and
    [TimeB64.v].  [reachable g m] says that [m] is a manager in a process whose
    key counter is [g], after some history of calls with defined behaviour. *)

From Coq Require Import List Bool Arith NArith ZArith Lia Permutation Sorting.Sorted.
From Verif Require Import Base TimeOrder TimeInst TimeB64 KeyGen Manager ManagerSpec
  ManagerProofs ManagerProofs2 ManagerProofs3.
Import ListNotations.

Section Props.
Context {T C : Type} `{TimeLaws T}.
Local Notation mgr := (mgr T C).

(** ** C02 *)

(** Any history of calls on any number of new managers either is stopped by a failed
    CHECK or ends in a state in which every manager passes checkInternalConsistency,
    has as many coefficients as keys, every key leads to its coefficient, and no key
    occurs twice, neither within a manager nor in two of them.  In particular there
    is no undefined behaviour. *)
Theorem C02_history_consistent : forall (n : nat) (h : list (nat * call T C)) (ceq : C -> C -> bool),
  (forall c, ceq c c = true) ->
  history_defined (world_init n) h -> (history_cost h < 2 ^ 64)%N ->
  exec_history (world_init n) h = Abort \/
  exists w, exec_history (world_init n) h = Ok w /\ length (w_mgrs w) = n /\
    NoDup (concat (map get_keys (w_mgrs w))) /\
    forall m, In m (w_mgrs w) ->
      check_internal_consistency ceq m = Ok tt /\
      size m = length (get_keys m) /\
      forall k, In k (get_keys m) -> exists t c, get_coefficient_by_key m k = Ok c /\
        get_coefficient_time_by_key m k = Ok t /\ holds m t k c.
Proof.
  intros n h ceq Hceq Hd Hcost.
  destruct (exec_history_good h (world_init n) (world_init_ok n) Hd Hcost)
    as [E|(w & E & [Hc Hb Hn Hg] & Hl & _)]; [left; exact E|].
  right. exists w. split; [exact E|]. split; [rewrite Hl; apply repeat_length|].
  split; [exact Hn|]. intros m Hm. rewrite Forall_forall in Hc. specialize (Hc m Hm).
  split; [now apply check_ok|]. split; [unfold size, get_keys; now rewrite map_length|].
  intros k Hk. apply in_map_iff in Hk as (x & <- & Hx).
  destruct (get_by_key_ok m x Hc Hx) as [E1 E2]. exists (n_time x), (n_coef x).
  split; [exact E1|]. split; [exact E2|]. exists x. rewrite teq_refl. auto.
Qed.

(** The assumptions [consistent] and [keys_below] of the theorems below hold in
    every reachable state. *)
Theorem C02_reachable : forall g (m : mgr),
  reachable g m -> consistent m /\ keys_below g m /\ (g < 2 ^ 64)%N.
Proof. exact reachable_ok. Qed.

(** ** C03 *)

Theorem C03_insert : forall g (m : mgr) t c,
  consistent m -> keys_below g m -> (g + 1 < 2 ^ 64)%N ->
  exists g' m' k, insert_coefficient g m t c = Ok (g', m', k) /\ consistent m' /\ keys_below g' m' /\
    holds m' t k c /\
    (forall t' k' c', teq t t' = false -> (holds m' t' k' c' <-> holds m t' k' c')) /\
    (forall k0 c0, holds m t k0 c0 -> k = k0 /\ g' = g /\ size m' = size m) /\
    (~ present m t -> ~ known_key m k /\ g' = (g + 1)%N /\ size m' = S (size m)).
Proof.
  intros g m t c Hc Hb Hg.
  destruct (insert_general m g t c Hc Hb Hg) as (g' & m' & k & E & Hc' & Hb' & _ & _ & Hh & Hall).
  exists g', m', k. split; [exact E|]. split; [exact Hc'|]. split; [exact Hb'|]. split; [exact Hh|].
  split; [|split].
  - intros t' k' c' Et. rewrite Hall, Et. intuition congruence.
  - intros k0 c0 H1. destruct (insert_present m g t c k0 c0 Hc H1) as (m2 & E2 & _ & Et & _).
    rewrite E in E2. injection E2 as -> -> ->. repeat split.
    apply (f_equal (@length _)) in Et. unfold get_times in Et. now rewrite !map_length in Et.
  - intros Hp. destruct (insert_absent m g t c Hc Hb Hg Hp) as (m2 & a & b & E2 & _ & _ & _ & Hk & _).
    rewrite E in E2. injection E2 as -> -> ->. split; [now apply below_not_known|]. split; [reflexivity|].
    apply Permutation_length in Hk. unfold get_keys in Hk. simpl in Hk. now rewrite !map_length in Hk.
Qed.

Theorem C03_insert_twice : forall g (m : mgr) t c g1 m1 k1,
  consistent m -> keys_below g m -> (g + 1 < 2 ^ 64)%N ->
  insert_coefficient g m t c = Ok (g1, m1, k1) ->
  insert_coefficient g1 m1 t c = Ok (g1, m1, k1).
Proof. intros g m t c g1 m1 k1. apply insert_twice. Qed.

(** ** C04 *)

Theorem C04_bulk_abort_iff : forall g (m : mgr) ts cs out,
  consistent m -> keys_below g m -> (g + N.of_nat (length ts) < 2 ^ 64)%N ->
  (insert_coefficients g m ts cs out = Abort <-> length ts <> length cs).
Proof.
  intros g m ts cs out Hc Hb Hg. unfold insert_coefficients.
  destruct (Nat.eqb_spec (length ts) (length cs)) as [E|E]; [|tauto].
  destruct (insert_loop_spec (combine ts cs) g m out Hc Hb) as (g' & m' & ks & -> & _).
  { rewrite combine_length, E, Nat.min_id, <- E. exact Hg. }
  split; [discriminate|tauto].
Qed.

Theorem C04_bulk_values : forall g (m : mgr) ts cs out,
  consistent m -> keys_below g m -> (g + N.of_nat (length ts) < 2 ^ 64)%N ->
  length ts = length cs ->
  exists g' m' ks, insert_coefficients g m ts cs out = Ok (g', m', out ++ ks) /\
    consistent m' /\ keys_below g' m' /\
    (* the last value given for a time is stored there *)
    (forall t c, last_value (combine ts cs) t = Some c -> exists k, holds m' t k c) /\
    (* other times keep their coefficient and key *)
    (forall t k c, last_value (combine ts cs) t = None -> (holds m' t k c <-> holds m t k c)) /\
    (* existing times keep their key *)
    (forall t k c, holds m t k c -> exists c', holds m' t k c') /\
    (* outKeys lists, position by position, the keys of the given times *)
    length ks = length ts /\
    (forall i t k, nth_error ts i = Some t -> nth_error ks i = Some k -> exists c, holds m' t k c).
Proof.
  intros g m ts cs out Hc Hb Hg Hl.
  destruct (insert_loop_spec (combine ts cs) g m out Hc Hb) as
    (g' & m' & ks & E & Hc' & Hb' & _ & _ & Hlen & Hks & Hkeep & Hback & Hlast & Hrest).
  { rewrite combine_length, Hl, Nat.min_id, <- Hl. exact Hg. }
  exists g', m', ks. split.
  { unfold insert_coefficients. rewrite (proj2 (Nat.eqb_eq _ _) Hl). exact E. }
  split; [exact Hc'|]. split; [exact Hb'|]. split; [exact Hlast|].
  split; [|split; [|split]].
  - intros t k c En. split; [|apply Hrest; exact En]. intros Hx. apply Hback in Hx. now rewrite En in Hx.
  - exact Hkeep.
  - rewrite Hlen, combine_length, <- Hl. apply Nat.min_id.
  - intros i t k Et Ek.
    assert (Hi : i < length cs) by (rewrite <- Hl; apply nth_error_Some; congruence).
    destruct (nth_error cs i) as [c|] eqn:Ec; [|apply nth_error_None in Ec; lia].
    apply (Hks i t c k); [|exact Ek]. clear - Et Ec. revert ts cs Et Ec.
    induction i as [|i IH]; intros [|t0 ts] [|c0 cs] Et Ec; simpl in *; try discriminate.
    + injection Et as ->. injection Ec as ->. reflexivity.
    + apply IH; assumption.
Qed.

(** Listing pairwise different times in another order stores the same values. *)
Theorem C04_bulk_order : forall g (m : mgr) ts cs ts' cs' out out',
  consistent m -> keys_below g m -> (g + N.of_nat (length ts) < 2 ^ 64)%N ->
  length ts = length cs -> length ts' = length cs' ->
  Permutation (combine ts cs) (combine ts' cs') ->
  ForallOrdPairs (fun a b => teq a b = false) ts ->
  exists g1 m1 o1 g2 m2 o2,
    insert_coefficients g m ts cs out = Ok (g1, m1, o1) /\
    insert_coefficients g m ts' cs' out' = Ok (g2, m2, o2) /\
    forall t c, (exists k, holds m1 t k c) <-> (exists k, holds m2 t k c).
Proof.
  intros g m ts cs ts' cs' out out' Hc Hb Hg Hl Hl' Hp Hd.
  assert (Hlen : length ts' = length ts).
  { apply Permutation_length in Hp. rewrite !combine_length, <- Hl, <- Hl', !Nat.min_id in Hp. auto. }
  destruct (C04_bulk_values g m ts cs out Hc Hb Hg Hl) as (g1 & m1 & k1 & E1 & _ & _ & A1 & B1 & D1 & _).
  destruct (C04_bulk_values g m ts' cs' out' Hc Hb ltac:(rewrite Hlen; exact Hg) Hl')
    as (g2 & m2 & k2 & E2 & _ & _ & A2 & B2 & D2 & _).
  exists g1, m1, (out ++ k1), g2, m2, (out' ++ k2). split; [exact E1|]. split; [exact E2|].
  assert (Hfst : forall (a : list T) (b : list C), length a = length b -> map fst (combine a b) = a).
  { induction a as [|x a IH]; intros [|y b] E; simpl in *; try discriminate; auto.
    rewrite IH by congruence. reflexivity. }
  assert (Hlv : forall t, last_value (combine ts cs) t = last_value (combine ts' cs') t).
  { intros t. apply last_value_perm; [|exact Hp]. unfold pairwise_distinct. now rewrite Hfst. }
  intros t c. specialize (Hlv t).
  destruct (insert_loop_spec (combine ts cs) g m out Hc Hb) as
    (g1' & m1' & ks1 & E1' & _ & _ & _ & _ & _ & _ & _ & Hback1 & _).
  { rewrite combine_length, Hl, Nat.min_id, <- Hl. exact Hg. }
  destruct (insert_loop_spec (combine ts' cs') g m out' Hc Hb) as
    (g2' & m2' & ks2 & E2' & _ & _ & _ & _ & _ & _ & _ & Hback2 & _).
  { rewrite combine_length, Hl', Nat.min_id, <- Hl', Hlen. exact Hg. }
  unfold insert_coefficients in E1, E2.
  rewrite (proj2 (Nat.eqb_eq _ _) Hl) in E1. rewrite (proj2 (Nat.eqb_eq _ _) Hl') in E2.
  rewrite E1 in E1'. injection E1' as <- <- _. rewrite E2 in E2'. injection E2' as <- <- _.
  split; intros (k & Hk).
  - apply Hback1 in Hk. destruct (last_value (combine ts cs) t) as [c0|] eqn:El.
    + subst c0. apply A2. now rewrite <- Hlv.
    + exists k. apply B2; auto.
  - apply Hback2 in Hk. destruct (last_value (combine ts' cs') t) as [c0|] eqn:El.
    + subst c0. apply A1. exact Hlv.
    + exists k. apply B1; auto.
Qed.

(** ** C05 *)

Theorem C05_listing : forall (m : mgr), consistent m ->
  StronglySorted (fun a b => tlt a b = true) (get_times m) /\
  NoDup (get_keys m) /\
  length (get_times m) = size m /\ length (get_keys m) = size m /\
  (forall t, has_coefficient_at_time m t = true <-> exists t', In t' (get_times m) /\ teq t' t = true) /\
  (forall i t k, nth_error (get_times m) i = Some t -> nth_error (get_keys m) i = Some k ->
     exists c, holds m t k c) /\
  (forall t k c k' c', holds m t k c -> holds m t k' c' -> k = k' /\ c = c') /\
  min_time m = hd tzero (get_times m) /\ max_time m = last (get_times m) tzero.
Proof.
  intros m Hc. split; [apply (c_sorted _ Hc)|]. split; [apply (c_keys _ Hc)|].
  split; [unfold get_times, size; apply map_length|]. split; [unfold get_keys, size; apply map_length|].
  split; [|split; [|split; [|split]]].
  - intros t. rewrite present_has by exact Hc. split.
    + intros (k & c & n & Hi & E & _). exists (n_time n). split; auto. now apply in_map.
    + intros (t' & Hi & E). apply in_map_iff in Hi as (n & <- & Hi). exists (n_key n), (n_coef n), n. auto.
  - intros i t k Et Ek. destruct (nth_time_key m i k t Ek Et) as (n & En & <- & <-).
    exists (n_coef n), n. rewrite teq_refl. apply nth_error_In in En. auto.
  - intros t k c k' c'. now apply holds_unique.
  - unfold min_time, get_times. now destruct (nodes m).
  - rewrite <- al_max_spec. unfold al_max. now rewrite contents_times.
Qed.

(** The listing after any history. *)
Theorem C05_reachable : forall g (m : mgr), reachable g m ->
  StronglySorted (fun a b => tlt a b = true) (get_times m) /\
  NoDup (get_keys m) /\
  length (get_times m) = size m /\ length (get_keys m) = size m /\
  (forall t, has_coefficient_at_time m t = true <-> exists t', In t' (get_times m) /\ teq t' t = true) /\
  (forall i t k, nth_error (get_times m) i = Some t -> nth_error (get_keys m) i = Some k ->
     exists c, holds m t k c) /\
  min_time m = hd tzero (get_times m) /\ max_time m = last (get_times m) tzero.
Proof.
  intros g m Hr. destruct (C02_reachable g m Hr) as (Hc & _).
  destruct (C05_listing m Hc) as (A & B & D & E & F & G & _ & I). tauto.
Qed.

(** ** C06 *)

Theorem C06_lookup : forall (m : mgr), consistent m ->
  (forall i k t, nth_error (get_keys m) i = Some k -> nth_error (get_times m) i = Some t ->
     get_coefficient_time_by_key m k = Ok t /\
     exists c, get_coefficient_by_key m k = Ok c /\ holds m t k c) /\
  (forall k, ~ In k (get_keys m) ->
     get_coefficient_by_key m k = Abort /\ get_coefficient_time_by_key m k = Abort).
Proof.
  intros m Hc. split.
  - intros i k t Ek Et. destruct (nth_time_key m i k t Ek Et) as (n & En & <- & <-).
    apply nth_error_In in En. destruct (get_by_key_ok m n Hc En) as [E1 E2].
    split; [exact E2|]. exists (n_coef n). split; [exact E1|]. exists n. rewrite teq_refl. auto.
  - intros k Hk. now apply get_by_key_abort.
Qed.

(** The look-ups after any history. *)
Theorem C06_reachable : forall g (m : mgr), reachable g m ->
  (forall i k t, nth_error (get_keys m) i = Some k -> nth_error (get_times m) i = Some t ->
     get_coefficient_time_by_key m k = Ok t /\
     exists c, get_coefficient_by_key m k = Ok c /\ holds m t k c) /\
  (forall k, ~ In k (get_keys m) ->
     get_coefficient_by_key m k = Abort /\ get_coefficient_time_by_key m k = Abort).
Proof. intros g m Hr. destruct (C02_reachable g m Hr) as (Hc & _). now apply C06_lookup. Qed.

(** ** C07 *)

Theorem C07_remove : forall (m : mgr) t, consistent m ->
  (remove_coefficient_at_time m t = Abort <-> ~ present m t) /\
  (forall k c, holds m t k c ->
     exists m', remove_coefficient_at_time m t = Ok m' /\ consistent m' /\
       ~ present m' t /\ ~ known_key m' k /\
       (forall t' k' c', teq t t' = false -> (holds m' t' k' c' <-> holds m t' k' c')) /\
       size m = S (size m')).
Proof.
  intros m t Hc. split.
  - split; [|now apply remove_absent].
    intros E (k & c & Hh). destruct (remove_present m t k c Hc Hh) as (m' & E' & _). congruence.
  - intros k c Hh. destruct (remove_present m t k c Hc Hh) as (m' & E & Hc' & Hp & Hs & Hall).
    exists m'. split; [exact E|]. split; [exact Hc'|]. split; [|split; [|split; [|exact Hs]]].
    + intros (k' & c' & Hx). apply Hall in Hx as [Ht _]. rewrite teq_refl in Ht. discriminate.
    + intros Hk. pose proof (c_keys _ Hc) as Hn. eapply Permutation_NoDup in Hn; [|exact Hp].
      inversion Hn; subst. contradiction.
    + intros t' k' c' Et. rewrite Hall. tauto.
Qed.

Theorem C07_insert_remove : forall g (m : mgr) t c g1 m1 k1,
  consistent m -> keys_below g m -> (g + 1 < 2 ^ 64)%N -> ~ present m t ->
  insert_coefficient g m t c = Ok (g1, m1, k1) ->
  exists m2, remove_coefficient_at_time m1 t = Ok m2 /\ consistent m2 /\
    forall t' k' c', holds m t' k' c' <-> holds m2 t' k' c'.
Proof. intros g m t c g1 m1 k1. apply remove_after_insert. Qed.

(** ** C08 *)

Theorem C08_update : forall (m : mgr) k c, consistent m ->
  (update_coefficient_by_key m k c = Abort <-> ~ In k (get_keys m)) /\
  (In k (get_keys m) ->
     exists m', update_coefficient_by_key m k c = Ok m' /\ consistent m' /\
       get_times m' = get_times m /\ get_keys m' = get_keys m /\
       get_coefficient_by_key m' k = Ok c /\
       (forall t' k' c', k' <> k -> (holds m' t' k' c' <-> holds m t' k' c'))).
Proof.
  intros m k c Hc. split.
  - split; [|now apply update_abort].
    intros E Hk. destruct (update_spec m k c Hc Hk) as (m' & E' & _). congruence.
  - intros Hk. destruct (update_spec m k c Hc Hk) as (m' & E & Hc' & Et & Ek & Hh).
    exists m'. split; [exact E|]. split; [exact Hc'|]. split; [exact Et|]. split; [exact Ek|].
    split.
    + assert (Hk' : In k (get_keys m')) by (rewrite Ek; exact Hk).
      apply in_map_iff in Hk' as (n & <- & Hn).
      destruct (get_by_key_ok m' n Hc' Hn) as [E1 _]. rewrite E1. f_equal.
      assert (Hx : holds m' (n_time n) (n_key n) (n_coef n)) by (exists n; rewrite teq_refl; auto).
      apply Hh in Hx as [(_ & -> & _)|(Hne & _)]; congruence.
    + intros t' k' c' Hne. rewrite Hh. tauto.
Qed.

(** updateCoefficients does not depend on the iteration order of its argument. *)
Theorem C08_update_many_order : forall (m : mgr) kcs kcs',
  consistent m -> NoDup (map fst kcs) -> Permutation kcs kcs' ->
  update_coefficients m kcs = update_coefficients m kcs'.
Proof. intros m kcs kcs' Hc Hn Hp. now apply update_many_perm. Qed.

Theorem C08_update_many_values : forall (m m' : mgr) kcs,
  NoDup (map fst kcs) -> consistent m -> update_coefficients m kcs = Ok m' ->
  forall t k c, holds m' t k c <->
    (In (k, c) kcs /\ exists c0, holds m t k c0) \/ (~ In k (map fst kcs) /\ holds m t k c).
Proof. intros m m' kcs. apply update_many_holds. Qed.

(** ** C09 *)

Theorem C09_domain : forall (m : mgr) t, consistent m ->
  (exists r, get_coefficients_at m t = Some r) <->
  2 <= size m /\ tle (min_time m) t = true /\ tle t (max_time m) = true.
Proof. intros m t. apply get_at_domain. Qed.

Theorem C09_bracket : forall (m : mgr) t n0 n1, consistent m ->
  get_coefficients_at m t = Some (n0, n1) ->
  exists a b, nodes m = a ++ n0 :: n1 :: b /\ tle (n_time n0) t = true /\
    (tlt t (n_time n1) = true \/ (b = [] /\ teq t (n_time n1) = true)).
Proof. intros m t n0 n1. apply get_at_some. Qed.

Theorem C09_reachable : forall g (m : mgr) t, reachable g m ->
  ((exists r, get_coefficients_at m t = Some r) <->
   2 <= size m /\ tle (hd tzero (get_times m)) t = true /\ tle t (last (get_times m) tzero) = true) /\
  forall n0 n1, get_coefficients_at m t = Some (n0, n1) ->
    exists i, nth_error (get_times m) i = Some (n_time n0) /\ nth_error (get_times m) (S i) = Some (n_time n1) /\
      nth_error (get_keys m) i = Some (n_key n0) /\ nth_error (get_keys m) (S i) = Some (n_key n1) /\
      tle (n_time n0) t = true /\
      (tlt t (n_time n1) = true \/ (S (S i) = size m /\ teq t (n_time n1) = true)).
Proof.
  intros g m t Hr. destruct (C02_reachable g m Hr) as (Hc & _). split.
  - destruct (C05_listing m Hc) as (_ & _ & _ & _ & _ & _ & _ & <- & <-). now apply C09_domain.
  - intros n0 n1 E. destruct (C09_bracket m t n0 n1 Hc E) as (a & b & En & Hl & Hu).
    exists (length a). unfold get_times, get_keys, size. rewrite !nth_error_map, En.
    rewrite nth_error_app2, Nat.sub_diag by lia.
    rewrite (nth_error_app2 a) by lia. replace (S (length a) - length a) with 1 by lia. simpl.
    do 5 (split; [auto|]). destruct Hu as [Hu|[-> Hu]]; [now left|right].
    split; [rewrite app_length; simpl; lia|exact Hu].
Qed.

(** ** C10 *)

Theorem C10_window : forall (m : mgr) beg, consistent m -> 2 <= size m ->
  tlt (min_time m) beg = true ->
  get_times_in_window m beg (max_time m) = Ok (filter (fun t => tle beg t) (get_times m)).
Proof.
  intros m beg Hc Hs Hb. rewrite window_spec; auto using teq_refl, tlt_le.
  f_equal. now apply filter_tl_gt.
Qed.

(** The first coefficient time is missing when the window starts there. *)
Theorem C10_first_missing : forall (m : mgr) beg, consistent m -> 2 <= size m ->
  teq beg (min_time m) = true ->
  get_times_in_window m beg (max_time m) = Ok (tl (get_times m)) /\
  filter (fun t => tle beg t) (get_times m) = get_times m.
Proof.
  intros m beg Hc Hs E.
  assert (Hmin : tle (min_time m) beg = true) by (apply teq_tle; now rewrite teq_sym).
  assert (Hall : Forall (fun t => tle beg t = true) (get_times m)).
  { unfold get_times. apply Forall_map, Forall_forall. intros n Hn.
    rewrite (tle_teq_l _ _ (n_time n) E). now apply min_time_bound. }
  assert (Hfil : forall l : list T, Forall (fun t => tle beg t = true) l -> filter (fun t => tle beg t) l = l).
  { induction l as [|x l IH]; intros Hf; simpl; auto. inversion Hf; subst. rewrite H3. now rewrite IH. }
  split; [|now apply Hfil].
  rewrite window_spec; auto using teq_refl. f_equal. apply Hfil.
  destruct (get_times m); simpl; auto. now inversion Hall.
Qed.

Theorem C10_abort_and_ub : forall (m : mgr) beg fin,
  (teq fin (max_time m) = false \/ tlt beg (min_time m) = true ->
     get_times_in_window m beg fin = Abort) /\
  (size m <= 1 -> teq fin (max_time m) = true -> tle (min_time m) beg = true ->
     get_times_in_window m beg fin = UB).
Proof. intros m beg fin. split; [apply window_abort | apply window_ub]. Qed.

(** ** C11 *)

Theorem C11_batch : forall (m : mgr) p mid q ts cs,
  consistent m -> get_times m = p ++ mid ++ q -> ts <> [] -> length ts = length cs ->
  Forall2 (fun t' t => teq t' t = true) mid ts ->
  exists m', modify_in_batch m ts cs = Ok m' /\ consistent m' /\
    get_times m' = get_times m /\ get_keys m' = get_keys m /\
    forall t k c, holds m' t k c <->
      match last_value (combine ts cs) t with
      | Some c0 => c = c0 /\ exists c1, holds m t k c1
      | None => holds m t k c
      end.
Proof.
  intros m p mid q ts cs Hc El Hne Hl Hf. unfold get_times in El.
  apply map_eq_app in El as (p' & r & El & <- & Er).
  apply map_eq_app in Er as (l & q' & -> & <- & <-).
  assert (Hf' : Forall2 (fun n t => teq (n_time n) t = true) l ts).
  { clear - Hf. revert ts Hf. induction l as [|n l IH]; intros ts Hf; inversion Hf; subst; constructor; auto. }
  eexists. split; [exact (batch_ok m p' l q' ts cs Hc El Hne Hl Hf')|].
  split; [now apply consistent_zip|].
  split; [unfold get_times; simpl; now rewrite El, !map_app, zip_coef_times|].
  split; [unfold get_keys; simpl; now rewrite El, !map_app, zip_coef_keys|].
  exact (batch_holds m p' l q' ts cs Hc El Hl Hf').
Qed.

(** The other cases: abort for different lengths, undefined behaviour for empty
    vectors and for a first time without coefficient, undefined behaviour when all
    times match but run past the last coefficient, abort at the first mismatch. *)
Theorem C11_batch_other : forall (m : mgr) ts cs, consistent m ->
  (length ts <> length cs -> modify_in_batch m ts cs = Abort) /\
  (ts = [] -> cs = [] -> modify_in_batch m ts cs = UB) /\
  (forall t0 r, ts = t0 :: r -> length ts = length cs -> ~ present m t0 -> modify_in_batch m ts cs = UB) /\
  (forall p l ts1 ts2, get_times m = p ++ l -> ts = ts1 ++ ts2 -> ts1 <> [] -> ts2 <> [] ->
     length ts = length cs ->
     Forall2 (fun t' t => teq t' t = true) l ts1 -> modify_in_batch m ts cs = UB) /\
  (forall p l t' q ts1 t ts2, get_times m = p ++ l ++ t' :: q -> ts = ts1 ++ t :: ts2 -> ts1 <> [] ->
     length ts = length cs -> Forall2 (fun t' t => teq t' t = true) l ts1 -> teq t' t = false ->
     modify_in_batch m ts cs = Abort).
Proof.
  intros m ts cs Hc.
  assert (Hseek : forall p n q t0, nodes m = p ++ n :: q -> teq (n_time n) t0 = true ->
    batch_seek (rev (nodes m)) [] t0 = Ok (rev p, n :: q)).
  { intros p n q t0 El E. pose proof (cons_sorted _ Hc) as Hs. rewrite El in Hs.
    apply sorted_split in Hs as [_ Hb].
    assert (Hq : Forall (fun y => teq (n_time y) t0 = false) q).
    { eapply Forall_impl; [|exact Hb]. intros y Hy. apply teq_false. right.
      now rewrite <- (tlt_teq_l _ _ (n_time y) E). }
    assert (Er : rev (nodes m) = rev q ++ n :: rev p).
    { rewrite El. rewrite rev_app_distr. simpl. now rewrite <- app_assoc. }
    rewrite Er, (batch_seek_at _ _ [] _ _ Hq E). now rewrite app_nil_r. }
  assert (Hf2 : forall (l : list (node T C)) ts1, Forall2 (fun t' t => teq t' t = true) (map n_time l) ts1 ->
    Forall2 (fun n t => teq (n_time n) t = true) l ts1).
  { intros l. induction l as [|n l IH]; intros ts1 Hf; inversion Hf; subst; constructor; auto. }
  repeat split.
  - intros Hl. unfold modify_in_batch. destruct (Nat.eqb_spec (length ts) (length cs)); [congruence|reflexivity].
  - intros -> ->. reflexivity.
  - intros t0 r -> Hl Hp. unfold modify_in_batch. rewrite (proj2 (Nat.eqb_eq _ _) Hl). simpl.
    rewrite batch_seek_none; [reflexivity|]. apply Forall_rev. now apply not_present_forall.
  - intros p l ts1 ts2 El -> Hn1 Hn2 Hl Hf. unfold modify_in_batch. rewrite (proj2 (Nat.eqb_eq _ _) Hl). cbn [negb].
    unfold get_times in El. apply map_eq_app in El as (p' & l' & El & <- & <-).
    apply Hf2 in Hf. destruct Hf as [|n t0 l' ts1 E Hf]; [congruence|].
    cbn [app]. rewrite (Hseek p' n l' t0 El E). cbn [bind].
    change (t0 :: ts1 ++ ts2) with ((t0 :: ts1) ++ ts2).
    rewrite batch_write_past; [reflexivity| |exact Hn2|exact Hl]. now constructor.
  - intros p l t' q ts1 t ts2 El -> Hn1 Hl Hf Hne. unfold modify_in_batch.
    rewrite (proj2 (Nat.eqb_eq _ _) Hl). cbn [negb].
    unfold get_times in El. apply map_eq_app in El as (p' & r & El & <- & Er).
    apply map_eq_app in Er as (l' & r' & -> & <- & Er).
    destruct r' as [|n' q']; [discriminate|]. simpl in Er. injection Er as <- <-.
    apply Hf2 in Hf. destruct Hf as [|n t0 l' ts1 E Hf]; [congruence|].
    cbn [app] in El |- *. rewrite (Hseek p' n _ t0 El E). cbn [bind].
    change (t0 :: ts1 ++ t :: ts2) with ((t0 :: ts1) ++ t :: ts2).
    change (n :: l' ++ n' :: q') with ((n :: l') ++ n' :: q').
    rewrite batch_write_mismatch; [reflexivity| |exact Hne|exact Hl]. now constructor.
Qed.

(** ** C12 *)

Theorem C12_add_at_end : forall g (m : mgr) t c out,
  consistent m -> keys_below g m -> (g + 1 < 2 ^ 64)%N ->
  (size m <> 0 -> add_coefficient_at_end g m t c out = Abort <-> tlt (max_time m) t = false) /\
  (size m <> 0 -> tlt (max_time m) t = true ->
     exists m' k, add_coefficient_at_end g m t c out = Ok (k, m', out ++ [k]) /\ consistent m' /\
       max_time m' = t /\ get_times m' = get_times m ++ [t] /\
       holds m' t k c /\ ~ known_key m k /\
       (forall t' k' c', teq t t' = false -> (holds m' t' k' c' <-> holds m t' k' c'))) /\
  (size m = 0 -> tlt tzero t = true -> add_coefficient_at_end g m t c out = UB) /\
  (size m = 0 -> tlt tzero t = false -> add_coefficient_at_end g m t c out = Abort).
Proof.
  intros g m t c out Hc Hb Hg.
  assert (Hne : size m <> 0 -> nodes m <> []).
  { unfold size. intros Hs E. rewrite E in Hs. simpl in Hs. lia. }
  assert (He : size m = 0 -> nodes m = []).
  { unfold size. destruct (nodes m); simpl; auto. discriminate. }
  split; [|split; [|split]].
  - intros Hs. split.
    + intros E. destruct (tlt (max_time m) t) eqn:Et; auto.
      destruct (add_end_spec m g t c out Hc Hb Hg (Hne Hs) Et) as (m' & E' & _). congruence.
    + intros Et. unfold add_coefficient_at_end. now rewrite Et.
  - intros Hs Et. destruct (add_end_spec m g t c out Hc Hb Hg (Hne Hs) Et)
      as (m' & E & Hc' & Hb' & En & Hm & Hh).
    exists m', (g + 1)%N. split; [exact E|]. split; [exact Hc'|]. split; [exact Hm|].
    split; [unfold get_times; rewrite En, map_app; reflexivity|].
    split; [apply Hh; left; rewrite teq_refl; auto|].
    split; [now apply below_not_known|].
    intros t' k' c' Ex. rewrite Hh, Ex. intuition congruence.
  - intros Hs Et. unfold add_coefficient_at_end, max_time. rewrite (He Hs). unfold last_node. simpl.
    now rewrite Et.
  - intros Hs Et. unfold add_coefficient_at_end, max_time. rewrite (He Hs). unfold last_node. simpl.
    now rewrite Et.
Qed.

(** ** C13 *)

Theorem C13_move : forall (m : mgr) i n t c,
  consistent m -> nth_error (nodes m) i = Some n -> ~ present m t ->
  exists m', modify_coefficient m (iter_at m i) t c = Ok m' /\ consistent m' /\
    Permutation (get_keys m') (get_keys m) /\ holds m' t (n_key n) c /\
    (forall t' k' c', k' <> n_key n -> (holds m' t' k' c' <-> holds m t' k' c')).
Proof.
  intros m i n t c Hc En Hp. unfold iter_at. rewrite En. apply nth_error_In in En.
  destruct (move_spec m n t c Hc En Hp) as (m' & E & Hc' & Hk & Hh).
  exists m'. split; [exact E|]. split; [exact Hc'|]. split; [exact Hk|].
  split; [apply Hh; left; rewrite teq_refl; auto|].
  intros t' k' c' Hne. rewrite Hh. split.
  - intros [(_ & Ek & _)|(_ & _ & Hx)]; [congruence|exact Hx].
  - intros Hx. right. split; [|split; [|exact Hx]].
    + destruct (teq t t') eqn:Et; auto. exfalso. apply Hp. exists k', c'.
      eapply holds_teq; [|exact Hx]. now rewrite teq_sym.
    + destruct (teq (n_time n) t') eqn:Et; auto. exfalso. apply Hne.
      assert (Hn : holds m t' (n_key n) (n_coef n)) by (exists n; auto).
      now destruct (holds_unique _ _ _ _ _ _ Hc Hx Hn).
Qed.

Theorem C13_move_own_time : forall (m : mgr) i n t c,
  consistent m -> nth_error (nodes m) i = Some n -> teq (n_time n) t = true ->
  exists m', modify_coefficient m (iter_at m i) t c = Ok m' /\
    size m = S (size m') /\
    (forall t' k' c', holds m' t' k' c' <-> teq t t' = false /\ holds m t' k' c') /\
    get_coefficient_by_key m' (n_key n) = UB /\
    get_coefficient_time_by_key m' (n_key n) = UB /\
    (forall c', update_coefficient_by_key m' (n_key n) c' = UB).
Proof.
  intros m i n t c Hc En E. unfold iter_at. rewrite En. apply nth_error_In in En.
  now apply move_own_time.
Qed.

Theorem C13_move_taken_time : forall (m : mgr) i n n2 t c ceq,
  consistent m -> nth_error (nodes m) i = Some n -> In n2 (nodes m) -> n <> n2 ->
  teq (n_time n2) t = true ->
  exists m', modify_coefficient m (iter_at m i) t c = Ok m' /\
    size m = S (size m') /\
    (forall t' k' c', holds m' t' k' c' <-> teq (n_time n) t' = false /\ holds m t' k' c') /\
    n_key n <> n_key n2 /\
    get_coefficient_by_key m' (n_key n) = Ok (n_coef n2) /\
    get_coefficient_by_key m' (n_key n2) = Ok (n_coef n2) /\
    check_internal_consistency ceq m' = Abort.
Proof.
  intros m i n n2 t c ceq Hc En Hi2 Hne E. unfold iter_at. rewrite En. apply nth_error_In in En.
  destruct (move_taken_time m n n2 t c ceq Hc En Hi2 Hne E) as (m' & A & B & D & F & G & I & J).
  exists m'. repeat (split; [assumption|]). assumption.
Qed.

(** ** C14 *)

Theorem C14_clear_observations : forall (m : mgr) t k,
  let m0 := clear m in
  size m0 = 0 /\ empty m0 = true /\ get_times m0 = [] /\ get_keys m0 = [] /\
  min_time m0 = tzero /\ max_time m0 = tzero /\
  has_coefficient_at_time m0 t = false /\ get_coefficients_at m0 t = None /\
  get_coefficient_by_key m0 k = Abort /\ get_coefficient_time_by_key m0 k = Abort.
Proof. intros m t k. repeat split. Qed.

(** A history replayed after clear() has the same effect, as far as times and values
    are concerned, as on a new manager in a new process; all keys are new. *)
Theorem C14_clear_replay : forall g (m : mgr) (h : list (call T C)),
  (g + calls_cost h < 2 ^ 64)%N -> Forall (fun o => key_free o = true) h -> moves_ok [] h ->
  (let* (_, m') := exec_calls g (clear m) h in Ok (contents m')) =
  (let* (_, m') := exec_calls 0 mgr_empty h in Ok (contents m')) /\
  (forall g' m', exec_calls g (clear m) h = Ok (g', m') ->
     Forall (fun k => (g < k)%N) (get_keys m')).
Proof.
  intros g m h Hg Hk Hm.
  destruct (calls_refine h g (clear m) (clear_consistent m)) as [E1 K1]; auto; [constructor|].
  destruct (calls_refine h 0%N mgr_empty consistent_empty) as [E2 _]; auto; [constructor|unfold key_mod; lia|].
  split; [rewrite E1, E2; reflexivity|].
  intros g' m' E. destruct (K1 g' m' E) as (_ & _ & _ & Hn). apply Forall_forall. intros k Hi.
  destruct (Hn k Hi) as [[]|Hx]. exact Hx.
Qed.

(** The manager without keys is a sorted association list, call by call. *)
Theorem C14_refinement : forall g (m : mgr) (o : call T C),
  consistent m -> keys_below g m -> (g + call_cost o < 2 ^ 64)%N -> key_free o = true ->
  match o with CMove i t _ => i < size m /\ ~ present m t | _ => True end ->
  (let* (_, m') := exec_call g m o in Ok (contents m')) = al_call (contents m) o.
Proof. intros g m o. apply call_refines. Qed.

End Props.

(** ** Concrete cases, with integer times *)

Section Examples.
Local Open Scope Z_scope.

(** Two managers, a history with all kinds of calls. *)
Definition ex_history : list (nat * call Z Z) :=
  [ (0%nat, CInsertMany [1; 3; 2; 3] [10; 30; 20; 31]);
    (1%nat, CInsert 5 50); (0%nat, CAddEnd 7 70); (0%nat, CUpdate 2 32);
    (0%nat, CBatch [2; 3] [21; 33]); (0%nat, CMove 0%nat 4 40); (1%nat, CRemove 5);
    (0%nat, CUpdateMany [(1%N, 41); (3%N, 22)]) ].

Definition ex_world : world Z Z :=
  match exec_history (world_init 2) ex_history with Ok w => w | _ => world_init 0 end.

Definition ex_mgr : mgr Z Z := nth 0 (w_mgrs ex_world) mgr_empty.

Example ex_contents :
  exec_history (world_init 2) ex_history = Ok ex_world /\
  contents ex_mgr = [(2, 22); (3, 33); (4, 41); (7, 70)] /\
  get_keys ex_mgr = [3%N; 2%N; 1%N; 5%N] /\ w_gen ex_world = 5%N.
Proof. repeat split; vm_compute; reflexivity. Qed.

Example ex_history_defined : history_defined (world_init 2) ex_history.
Proof.
  unfold ex_history.
  repeat (split; [intros m E; vm_compute in E; injection E as <-; simpl; try exact I |
                  let E := fresh in intros w' E; vm_compute in E; injection E as <-]).
  - left. reflexivity.
  - right. exists 2, [3], [1], [2; 3; 7]. repeat split; simpl; lia.
  - split; [vm_compute; lia|]. intros (k & c & n & Hi & E & _). simpl in Hi.
    destruct Hi as [<-|[<-|[<-|[<-|[]]]]]; vm_compute in E; discriminate.
  - exact I.
Qed.

Example ex_reachable : reachable 5%N ex_mgr.
Proof.
  exists 2%nat, ex_history, ex_world, 0%nat.
  split; [exact ex_history_defined|]. split; [vm_compute; reflexivity|].
  split; [vm_compute; reflexivity|]. split; vm_compute; reflexivity.
Qed.

Example ex_consistent : consistent ex_mgr /\ keys_below 5%N ex_mgr.
Proof. destruct (C02_reachable _ _ ex_reachable) as (A & B & _). auto. Qed.

(** C03/C04/C07/C08/C09/C10/C11/C12/C13 on this state. *)
Example C03_example :
  ~ present ex_mgr 6 /\ holds ex_mgr 4 1%N 41 /\
  match insert_coefficient 5%N ex_mgr 6 60 with
  | Ok (g, m, k) => contents m = [(2, 22); (3, 33); (4, 41); (6, 60); (7, 70)] /\ k = 6%N /\ g = 6%N
  | _ => False
  end.
Proof.
  split; [|split; [|vm_compute; auto]].
  - intros (k & c & n & Hi & E & _). vm_compute in Hi.
    destruct Hi as [<-|[<-|[<-|[<-|[]]]]]; vm_compute in E; discriminate.
  - eexists. split; [vm_compute; right; right; left; reflexivity|]. vm_compute. auto.
Qed.

Example C04_example :
  match insert_coefficients 5%N ex_mgr [6; 4; 6] [1; 2; 3] [] with
  | Ok (_, m, ks) => contents m = [(2, 22); (3, 33); (4, 2); (6, 3); (7, 70)] /\ ks = [6%N; 1%N; 6%N]
  | _ => False
  end.
Proof. vm_compute. auto. Qed.

Example C08_example :
  NoDup (map fst [(1%N, 0); (3%N, 1)]) /\ In 1%N (get_keys ex_mgr) /\
  match update_coefficients ex_mgr [(1%N, 0); (3%N, 1)] with
  | Ok m => contents m = [(2, 1); (3, 33); (4, 0); (7, 70)]
  | _ => False
  end.
Proof.
  split; [|split; vm_compute; auto].
  simpl. constructor; [simpl; intuition discriminate|]. constructor; [simpl; tauto|constructor].
Qed.

Example C09_example :
  option_map (fun p => (n_time (fst p), n_time (snd p))) (get_coefficients_at ex_mgr 5) = Some (4, 7) /\
  option_map (fun p => (n_time (fst p), n_time (snd p))) (get_coefficients_at ex_mgr 7) = Some (4, 7) /\
  get_coefficients_at ex_mgr 1 = None.
Proof. vm_compute. auto. Qed.

Example C10_example :
  get_times_in_window ex_mgr 3 7 = Ok [3; 4; 7] /\
  get_times_in_window ex_mgr 2 7 = Ok [3; 4; 7] /\
  get_times_in_window ex_mgr 1 7 = Abort.
Proof. vm_compute. auto. Qed.

Example C11_example :
  get_times ex_mgr = [2] ++ [3; 4] ++ [7] /\
  match modify_in_batch ex_mgr [3; 4] [0; 1] with
  | Ok m => contents m = [(2, 22); (3, 0); (4, 1); (7, 70)] | _ => False end /\
  modify_in_batch ex_mgr [4; 7; 8] [0; 1; 2] = UB /\ modify_in_batch ex_mgr [3; 7] [0; 1] = Abort.
Proof. vm_compute. auto. Qed.

Example C12_example :
  match add_coefficient_at_end 5%N ex_mgr 9 90 [1%N] with
  | Ok (g, m, ks) => max_time m = 9 /\ ks = [1%N; 6%N] | _ => False end /\
  add_coefficient_at_end 5%N ex_mgr 7 90 [] = Abort /\
  add_coefficient_at_end 5%N (clear ex_mgr) 7 90 [] = UB.
Proof. vm_compute. auto. Qed.

Example C13_example :
  option_map n_key (nth_error (nodes ex_mgr) 1) = Some 2%N /\
  match modify_coefficient ex_mgr (iter_at ex_mgr 1) 3 5 with
  | Ok m => contents m = [(2, 22); (4, 41); (7, 70)] /\ get_coefficient_by_key m 2%N = UB
  | _ => False end.
Proof. vm_compute. auto. Qed.

Example C14_example :
  let h := [CInsert 3 1; CAddEnd 5 2; CMove 0%nat 4 9; CRemove 5; CInsertMany [8; 1] [2; 3]] : list (call Z Z) in
  moves_ok [] h /\
  (let* (_, m) := exec_calls 5%N (clear ex_mgr) h in Ok (contents m)) = Ok [(1, 3); (4, 9); (8, 2)].
Proof.
  split; [|vm_compute; reflexivity].
  repeat (split; [first [exact I | vm_compute; auto] |
     let E := fresh in intros l' E; vm_compute in E; injection E as <-]).
  exact I.
Qed.

End Examples.

(** The theorems apply to IEEE doubles. *)
Definition C09_domain_binary64 := @C09_domain b64_time.

Print Assumptions C02_history_consistent.
Print Assumptions C02_reachable.
Print Assumptions C03_insert.
Print Assumptions C03_insert_twice.
Print Assumptions C04_bulk_abort_iff.
Print Assumptions C04_bulk_values.
Print Assumptions C04_bulk_order.
Print Assumptions C05_listing.
Print Assumptions C06_lookup.
Print Assumptions C07_remove.
Print Assumptions C07_insert_remove.
Print Assumptions C08_update.
Print Assumptions C08_update_many_order.
Print Assumptions C08_update_many_values.
Print Assumptions C09_domain.
Print Assumptions C09_bracket.
Print Assumptions C10_window.
Print Assumptions C10_first_missing.
Print Assumptions C10_abort_and_ub.
Print Assumptions C11_batch.
Print Assumptions C11_batch_other.
Print Assumptions C12_add_at_end.
Print Assumptions C13_move.
Print Assumptions C13_move_own_time.
Print Assumptions C13_move_taken_time.
Print Assumptions C14_clear_observations.
Print Assumptions C14_clear_replay.
Print Assumptions C14_refinement.
