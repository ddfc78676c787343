(** * Renaming times

    A map of times that preserves the comparison carries runs of the manager to runs
    of the manager.  Used to apply the theorems on lawful times (doubles without NaN,
    as a subset type) to managers whose times are plain doubles. *)

From Coq Require Import List Bool Arith NArith Sorting.Sorted Permutation.
From Verif Require Import Base TimeOrder KeyGen Manager ManagerSpec.
Import ListNotations.

Section Map.
Context {T U C : Type} `{TimeOps T} `{TimeOps U}.
Variable f : T -> U.
Hypothesis f_lt : forall a b, tlt (f a) (f b) = tlt a b.
Hypothesis f_num : forall a, tnum (f a) = tnum a.
Hypothesis f_zero : f tzero = tzero.

Definition map_node (n : node T C) : node U C := Node (n_id n) (f (n_time n)) (n_key n) (n_coef n).
Definition map_mgr (m : mgr T C) : mgr U C := Mgr (map map_node (nodes m)) (index m) (fresh m).
Definition map_pair (p : node T C * node T C) := (map_node (fst p), map_node (snd p)).

Lemma f_le a b : tle (f a) (f b) = tle a b.
Proof. unfold tle. now rewrite f_lt, !f_num. Qed.

Lemma f_eq a b : teq (f a) (f b) = teq a b.
Proof. unfold teq, tequiv. now rewrite !f_lt, !f_num. Qed.

Lemma f_equiv a b : tequiv (f a) (f b) = tequiv a b.
Proof. unfold tequiv. now rewrite !f_lt. Qed.

Lemma map_last (l : list (node T C)) : last_node (map map_node l) = option_map map_node (last_node l).
Proof. unfold last_node. rewrite <- map_rev. now destruct (rev l). Qed.

Lemma map_size m : size (map_mgr m) = size m.
Proof. apply map_length. Qed.

Lemma map_empty m : empty (map_mgr m) = empty m.
Proof. unfold empty. simpl. now destruct (nodes m). Qed.

Lemma map_min m : min_time (map_mgr m) = f (min_time m).
Proof. unfold min_time. simpl. now destruct (nodes m). Qed.

Lemma map_max m : max_time (map_mgr m) = f (max_time m).
Proof. unfold max_time. simpl. rewrite map_last. now destruct (last_node (nodes m)). Qed.

Lemma map_bracket_from l : forall p t,
  bracket_from (map_node p) (map map_node l) (f t) = option_map map_pair (bracket_from p l t).
Proof.
  induction l as [|n l IH]; intros p t; simpl; auto.
  rewrite f_lt. destruct (tlt t (n_time n)); auto.
Qed.

Lemma map_get_at m t : get_coefficients_at (map_mgr m) (f t) = option_map map_pair (get_coefficients_at m t).
Proof.
  unfold get_coefficients_at. rewrite map_empty, map_max, f_eq.
  destruct (empty m); auto. destruct (teq t (max_time m)); simpl.
  - unfold last_two. rewrite <- map_rev. destruct (rev (nodes m)) as [|a [|b r]]; auto.
  - unfold bracket_upper. destruct (nodes m) as [|n l]; simpl; auto. rewrite f_lt.
    destruct (tlt t (n_time n)); simpl; auto. apply map_bracket_from.
Qed.

Lemma map_scan l t : scan_at_time (map map_node l) (f t) = option_map map_node (scan_at_time l t).
Proof.
  induction l as [|n l IH]; simpl; auto. rewrite !f_le.
  destruct (tle t (n_time n)); auto. destruct (tle (n_time n) t); auto.
Qed.

Lemma map_map_insert n l : map_insert (map_node n) (map map_node l) =
  let '(l', i, b) := map_insert n l in (map map_node l', i, b).
Proof.
  induction l as [|a l IH]; simpl; auto. rewrite !f_lt.
  destruct (tlt (n_time n) (n_time a)); auto. destruct (tlt (n_time a) (n_time n)); auto.
  change (Node (n_id n) (f (n_time n)) (n_key n) (n_coef n)) with (map_node n). rewrite IH.
  now destruct (map_insert n l) as [[l' i] b].
Qed.

Lemma map_find_id l i : node_by_id (map map_node l) i = option_map map_node (node_by_id l i).
Proof.
  unfold node_by_id. induction l as [|n l IH]; simpl; auto. destruct (Nat.eqb (n_id n) i); auto.
Qed.

Definition map_ok {A B} (h : A -> B) (o : outcome A) : outcome B :=
  match o with Ok a => Ok (h a) | Abort => Abort | Throw => Throw | UB => UB end.

Lemma map_update m k c :
  update_coefficient_by_key (map_mgr m) k c = map_ok map_mgr (update_coefficient_by_key m k c).
Proof.
  unfold update_coefficient_by_key. simpl. destruct (idx_find k (index m)) as [i|]; auto.
  simpl. rewrite map_find_id. destruct (node_by_id (nodes m) i); auto. simpl.
  unfold map_mgr; simpl. do 2 f_equal. unfold set_coef. rewrite !map_map. apply map_ext. intros a.
  simpl. destruct (Nat.eqb (n_id a) i); auto.
Qed.

Lemma map_insert_coefficient g m t c : insert_coefficient g (map_mgr m) (f t) c =
  map_ok (fun r => let '(g', m', k) := r in (g', map_mgr m', k)) (insert_coefficient g m t c).
Proof.
  unfold insert_coefficient. simpl. rewrite map_scan.
  destruct (scan_at_time (nodes m) t) as [n|]; simpl.
  - rewrite map_update. destruct (update_coefficient_by_key m (n_key n) c); auto.
  - change (Node (fresh m) (f t) (next_key g) c) with (map_node (Node (fresh m) t (next_key g) c)).
    rewrite map_map_insert. now destruct (map_insert _ (nodes m)) as [[l' i] b].
Qed.

Lemma map_insert_loop tcs : forall g m out,
  insert_loop g (map_mgr m) (map (fun tc => (f (fst tc), snd tc)) tcs) out =
  map_ok (fun r => let '(g', m', ks) := r in (g', map_mgr m', ks)) (insert_loop g m tcs out).
Proof.
  induction tcs as [|[t c] r IH]; intros g m out; simpl; auto.
  rewrite map_insert_coefficient. destruct (insert_coefficient g m t c) as [[[g' m'] k]| | |]; simpl; auto.
Qed.

Lemma map_insert_coefficients g m ts cs out :
  insert_coefficients g (map_mgr m) (map f ts) cs out =
  map_ok (fun r => let '(g', m', ks) := r in (g', map_mgr m', ks)) (insert_coefficients g m ts cs out).
Proof.
  unfold insert_coefficients. rewrite map_length. destruct (Nat.eqb (length ts) (length cs)); auto.
  rewrite <- map_insert_loop. f_equal. clear. revert cs. induction ts as [|t ts IH]; intros [|c cs]; simpl; auto.
  now rewrite IH.
Qed.

Lemma map_contents m : contents (map_mgr m) = map (fun tc => (f (fst tc), snd tc)) (contents m).
Proof. unfold contents. simpl. now rewrite !map_map. Qed.

End Map.

Section Consistent.
Context {T U C : Type} `{TimeOps T} `{TimeOps U}.
Variable f : T -> U.
Hypothesis f_lt : forall a b, tlt (f a) (f b) = tlt a b.

Lemma map_sorted (l : list T) : StronglySorted t_lt (map f l) <-> StronglySorted t_lt l.
Proof.
  induction l as [|a l IH]; simpl; [split; constructor|].
  split; intros Hs; apply StronglySorted_inv in Hs as [Hs Hf]; constructor; try (now apply IH).
  - rewrite Forall_map in Hf. eapply Forall_impl; [|exact Hf]. unfold t_lt. intros x. now rewrite f_lt.
  - rewrite Forall_map. eapply Forall_impl; [|exact Hf]. unfold t_lt. intros x. now rewrite f_lt.
Qed.

Lemma map_consistent (m : mgr T C) : consistent (map_mgr f m) <-> consistent m.
Proof.
  assert (E1 : get_times (map_mgr f m) = map f (get_times m)) by (unfold get_times; simpl; now rewrite !map_map).
  assert (E2 : map n_id (nodes (map_mgr f m)) = map n_id (nodes m)) by (simpl; now rewrite map_map).
  assert (E3 : get_keys (map_mgr f m) = get_keys m) by (unfold get_keys; simpl; now rewrite map_map).
  assert (E4 : map (fun n => (n_key n, n_id n)) (nodes (map_mgr f m)) = map (fun n => (n_key n, n_id n)) (nodes m))
    by (simpl; now rewrite map_map).
  split; intros [A B F K P]; split.
  - rewrite E1 in A. now apply map_sorted in A.
  - now rewrite E2 in B.
  - simpl in F. now rewrite Forall_map in F.
  - now rewrite E3 in K.
  - now rewrite E4 in P.
  - rewrite E1. now apply map_sorted.
  - now rewrite E2.
  - simpl. now rewrite Forall_map.
  - now rewrite E3.
  - now rewrite E4.
Qed.

Lemma map_keys_below g (m : mgr T C) : keys_below g (map_mgr f m) <-> keys_below g m.
Proof. unfold keys_below, get_keys. simpl. now rewrite map_map. Qed.

End Consistent.

(** A manager all of whose times satisfy [P] comes from one over the subset type. *)
Lemma lift_mgr {U C} (P : U -> Prop) (m : mgr U C) :
  Forall (fun n => P (n_time n)) (nodes m) ->
  exists m' : mgr {u : U | P u} C, map_mgr (@proj1_sig _ _) m' = m.
Proof.
  destruct m as [l i f]. simpl. intros Hf.
  assert (X : exists l' : list (node {u : U | P u} C), map (map_node (@proj1_sig _ _)) l' = l).
  { induction Hf as [|n l Hn _ [l' <-]]; [now exists []|].
    exists (Node (n_id n) (exist _ (n_time n) Hn) (n_key n) (n_coef n) :: l').
    simpl. f_equal. now destruct n. }
  destruct X as [l' <-]. now exists (Mgr l' i f).
Qed.
