(** * Properties of copied coefficient managers *)

From Coq Require Import List Bool Arith NArith ZArith Lia Permutation Sorting.Sorted.
From Verif Require Import Base TimeOrder TimeInst KeyGen Manager ManagerSpec ManagerProofs ManagerProofs2
  ManagerProofs3 ManagerCopy.
Import ListNotations.

Section Copy.
Context {T C : Type} `{TimeLaws T}.
Local Notation node := (node T C).
Local Notation mgr := (mgr T C).

(** What a node is without its address. *)
Definition bare (n : node) : T * N * C := (n_time n, n_key n, n_coef n).
Definition bare2 (p : node * node) : (T * N * C) * (T * N * C) := (bare (fst p), bare (snd p)).

Lemma renumber_bare l : forall i, map bare (renumber i l) = map bare l.
Proof. induction l as [|n r IH]; intros i; simpl; [reflexivity|]. now rewrite IH. Qed.

Lemma renumber_length (l : list node) : forall i, length (renumber i l) = length l.
Proof. induction l; intros i; simpl; auto. Qed.

Lemma renumber_ids (l : list node) : forall i x, In x (map n_id (renumber i l)) -> i <= x < i + length l.
Proof.
  induction l as [|n r IH]; intros i x; simpl; [tauto|]. intros [<-|Hx]; [lia|]. apply IH in Hx. lia.
Qed.

Lemma map_bare {A} (f : node -> A) (g : T * N * C -> A) (Hf : forall n, f n = g (bare n)) l l' :
  map bare l = map bare l' -> map f l = map f l'.
Proof.
  intros E. assert (X : forall l, map f l = map g (map bare l)).
  { intros. rewrite map_map. apply map_ext. auto. }
  rewrite !X. now rewrite E.
Qed.

Lemma last_bare l l' : map bare l = map bare l' -> option_map bare (last_node l) = option_map bare (last_node l').
Proof.
  intros E. assert (X : forall l, option_map bare (last_node l) = match rev (map bare l) with [] => None | b :: _ => Some b end).
  { intros q. unfold last_node. rewrite <- map_rev. destruct (rev q); reflexivity. }
  now rewrite !X, E.
Qed.

Lemma last_two_bare l l' : map bare l = map bare l' ->
  option_map bare2 (last_two l) = option_map bare2 (last_two l').
Proof.
  intros E. assert (X : forall l, option_map bare2 (last_two l) =
    match rev (map bare l) with n :: p :: _ => Some (p, n) | _ => None end).
  { intros q. unfold last_two. rewrite <- map_rev. destruct (rev q) as [|? [|? ?]]; reflexivity. }
  now rewrite !X, E.
Qed.

Lemma bracket_from_bare t : forall l l' p p', bare p = bare p' -> map bare l = map bare l' ->
  option_map bare2 (bracket_from p l t) = option_map bare2 (bracket_from p' l' t).
Proof.
  induction l as [|n r IH]; intros [|n' r'] p p' Ep E; simpl in *; try discriminate; auto.
  injection E as E0 E1 E2 E3. rewrite E0. destruct (tlt t (n_time n')).
  - simpl. unfold bare2. simpl. rewrite Ep. unfold bare at 2. rewrite E0, E1, E2. reflexivity.
  - apply IH; auto. unfold bare. now rewrite E0, E1, E2.
Qed.

Lemma scan_bare t : forall l l', map bare l = map bare l' ->
  option_map bare (scan_at_time l t) = option_map bare (scan_at_time l' t).
Proof.
  induction l as [|n r IH]; intros [|n' r'] E; simpl in *; try discriminate; auto.
  injection E as E0 E1 E2 E3. rewrite E0. destruct (tle t (n_time n')); [|auto].
  destruct (tle (n_time n') t); [|auto]. simpl. unfold bare. now rewrite E0, E1, E2.
Qed.

Lemma find_bare t : forall l l', map bare l = map bare l' ->
  option_map bare (map_find l t) = option_map bare (map_find l' t).
Proof.
  unfold map_find.
  induction l as [|n r IH]; intros [|n' r'] E; simpl in *; try discriminate; auto.
  injection E as E0 E1 E2 E3. rewrite E0. destruct (tequiv (n_time n') t); [|auto].
  simpl. unfold bare. now rewrite E0, E1, E2.
Qed.

(** ** C51: everything that goes by time works on the copy as on the original. *)
Theorem C51_by_time : forall m : mgr,
  get_times (copy_mgr m) = get_times m /\ get_keys (copy_mgr m) = get_keys m /\
  contents (copy_mgr m) = contents m /\ size (copy_mgr m) = size m /\
  min_time (copy_mgr m) = min_time m /\ max_time (copy_mgr m) = max_time m /\
  (forall t k c, holds (copy_mgr m) t k c <-> holds m t k c) /\
  forall t, has_coefficient_at_time (copy_mgr m) t = has_coefficient_at_time m t /\
    option_map bare2 (get_coefficients_at (copy_mgr m) t) = option_map bare2 (get_coefficients_at m t).
Proof.
  intros m. pose proof (renumber_bare (nodes m) (fresh m)) as E.
  assert (Emax : max_time (copy_mgr m) = max_time m).
  { unfold max_time. simpl. apply last_bare in E. destruct (last_node (renumber _ _)), (last_node (nodes m)); simpl in E;
      try discriminate; auto. now injection E as E _ _. }
  split; [apply (map_bare n_time (fun b => fst (fst b))); auto|].
  split; [apply (map_bare n_key (fun b => snd (fst b))); auto|].
  split; [apply (map_bare (fun n => (n_time n, n_coef n)) (fun b => (fst (fst b), snd b))); auto|].
  split; [apply renumber_length|].
  split. { unfold min_time. simpl. destruct (nodes m); reflexivity. }
  split; [exact Emax|].
  split.
  - assert (X : forall l l' t k c, map bare l = map bare l' ->
      (exists n, In n l /\ teq (n_time n) t = true /\ n_key n = k /\ n_coef n = c) ->
      exists n, In n l' /\ teq (n_time n) t = true /\ n_key n = k /\ n_coef n = c).
    { intros l l' t k c El (n & Hi & Et & <- & <-). apply (in_map bare) in Hi. rewrite El in Hi.
      apply in_map_iff in Hi as (n' & En & Hi). injection En as E1 E2 E3. exists n'. rewrite E1. auto. }
    intros t k c. split; apply X; auto.
  - intros t. split.
    + unfold has_coefficient_at_time. simpl. apply (find_bare t) in E.
      destruct (map_find (renumber _ _) t), (map_find (nodes m) t); simpl in E; try discriminate; auto.
    + unfold get_coefficients_at. rewrite Emax.
      replace (empty (copy_mgr m)) with (empty m) by (unfold empty; simpl; destruct (nodes m); reflexivity).
      destruct (empty m); [reflexivity|]. destruct (teq t (max_time m)); [now apply last_two_bare|].
      unfold bracket_upper. simpl. destruct (nodes m) as [|n r]; [reflexivity|]. simpl.
      destruct (tlt t (n_time n)); [reflexivity|]. apply bracket_from_bare; [reflexivity|].
      simpl in E. now injection E.
Qed.

Lemma holds_copy (m : mgr) t k c : holds (copy_mgr m) t k c <-> holds m t k c.
Proof. apply (C51_by_time m). Qed.

(** [m'] is [m] with other coefficient values. *)
Definition revalued (m m' : mgr) : Prop :=
  consistent m' /\ index m' = index m /\ Forall (fun n => n_id n < fresh m) (nodes m').

Lemma revalued_refl m : consistent m -> revalued m m.
Proof. intros Hc. split; [exact Hc|]. split; [reflexivity|]. apply Hc. Qed.

Lemma copy_miss m n m' : revalued m m' -> In n (nodes m') -> node_by_id (nodes (copy_mgr m)) (n_id n) = None.
Proof.
  intros (_ & _ & Hf) Hi. apply node_by_id_none. simpl. intros X. apply renumber_ids in X.
  rewrite Forall_forall in Hf. specialize (Hf n Hi). lia.
Qed.

(** Look-ups by key on a copy report what the original holds now. *)
Theorem C51_reads_the_original : forall (m m' : mgr) k, revalued m m' ->
  get_by_key2 (copy_mgr m) m' k = get_coefficient_by_key m' k /\
  get_time_by_key2 (copy_mgr m) m' k = get_coefficient_time_by_key m' k.
Proof.
  intros m m' k Hr. pose proof Hr as (Hc & Ei & _).
  unfold get_by_key2, get_time_by_key2, get_coefficient_by_key, get_coefficient_time_by_key. simpl. rewrite <- Ei.
  destruct (idx_find k (index m')) as [i|] eqn:E; [|auto].
  apply (cons_find_inv _ _ _ Hc) in E as (n & Hi & _ & <-). unfold deref2.
  rewrite (copy_miss m n m' Hr Hi), (node_by_id_in _ _ (c_ids _ Hc) Hi). auto.
Qed.

(** Setting a coefficient by key on a copy sets it in the original; the copy keeps
    its coefficients. *)
Theorem C51_sets_the_original : forall (m m' : mgr) k c, revalued m m' -> known_key m' k ->
  exists m2, update2 (copy_mgr m) m' k c = Ok (copy_mgr m, m2) /\
    update_coefficient_by_key m' k c = Ok m2 /\ revalued m m2.
Proof.
  intros m m' k c Hr Hk. pose proof Hr as (Hc & Ei & Hf).
  destruct (update_ok m' k c Hc Hk) as (n & Hi & Ek & Eu). eexists. split; [|split; [exact Eu|]].
  - unfold update2. change (index (copy_mgr m)) with (index m). rewrite <- Ei, <- Ek, (cons_find _ _ Hc Hi).
    rewrite (copy_miss m n m' Hr Hi), (node_by_id_in _ _ (c_ids _ Hc) Hi). reflexivity.
  - split; [now apply consistent_set_coef|]. split; [exact Ei|]. simpl. rewrite Forall_forall in *.
    intros x Hx. apply in_set_coef in Hx as (y & Hy & ->). specialize (Hf _ Hy). now destruct (Nat.eqb _ _).
Qed.

Lemma holds_node (m : mgr) t k c : holds m t k c -> exists n, In n (nodes m) /\ teq (n_time n) t = true /\ n_key n = k /\ n_coef n = c.
Proof. auto. Qed.

(** So the copy then contradicts itself: by time it has the old value, by key the
    new one; the same happens when a value is inserted at a time that has one. *)
Theorem C51_independence_refuted : forall (m : mgr) t k c0 c g, consistent m -> holds m t k c0 ->
  exists m2, update2 (copy_mgr m) m k c = Ok (copy_mgr m, m2) /\
    insert2 g (copy_mgr m) m t c = Ok (g, copy_mgr m, m2, k) /\
    holds (copy_mgr m) t k c0 /\ holds m2 t k c /\ get_by_key2 (copy_mgr m) m2 k = Ok c /\
    consistent m2 /\ forall t' k' c', k' <> k -> holds m2 t' k' c' <-> holds m t' k' c'.
Proof.
  intros m t k c0 c g Hc Hh. pose proof (holds_node _ _ _ _ Hh) as (n & Hi & Et & Ek & Ev).
  assert (Hk : known_key m k) by (subst k; now apply in_map).
  destruct (C51_sets_the_original m m k c (revalued_refl m Hc) Hk) as (m2 & E & Eu & Hr2).
  destruct (update_spec m k c Hc Hk) as (m2' & Eu' & Hc2 & _ & _ & Hh2). rewrite Eu in Eu'. injection Eu' as <-.
  assert (H2 : holds m2 t k c) by (apply Hh2; left; eauto).
  exists m2. split; [exact E|]. split; [|split; [now apply holds_copy|split; [exact H2|split; [|split; [exact Hc2|]]]]].
  - unfold insert2. pose proof (scan_bare t _ _ (renumber_bare (nodes m) (fresh m))) as X.
    rewrite (scan_some (nodes m) t n (cons_sorted _ Hc) Hi Et) in X. simpl.
    destruct (scan_at_time (renumber (fresh m) (nodes m)) t) as [n'|]; [|discriminate].
    simpl in X. injection X as _ X _. rewrite X, Ek, E. reflexivity.
  - rewrite (proj1 (C51_reads_the_original m m2 k Hr2)).
    destruct H2 as (n2 & Hi2 & _ & <- & <-). unfold get_coefficient_by_key. rewrite (cons_find _ _ Hc2 Hi2).
    rewrite (cons_deref _ _ Hc2 Hi2). reflexivity.
  - intros t' k' c' Hne. rewrite Hh2. intuition congruence.
Qed.

(** After the original is gone every look-up by a key of the copy is undefined, and
    so is inserting at a time of the copy. *)
Theorem C51_dangling : forall (m : mgr) k, consistent m ->
  (known_key (copy_mgr m) k ->
     get_by_key2 (copy_mgr m) (destroy m) k = UB /\ get_time_by_key2 (copy_mgr m) (destroy m) k = UB /\
     forall c, update2 (copy_mgr m) (destroy m) k c = UB) /\
  (~ known_key (copy_mgr m) k -> get_by_key2 (copy_mgr m) (destroy m) k = Abort) /\
  forall g t c, present (copy_mgr m) t -> insert2 g (copy_mgr m) (destroy m) t c = UB.
Proof.
  intros m k Hc.
  assert (X : forall k, known_key (copy_mgr m) k ->
    exists i, idx_find k (index m) = Some i /\ node_by_id (nodes (copy_mgr m)) i = None).
  { intros k' Hk. unfold known_key in Hk. rewrite (proj1 (proj2 (C51_by_time m))) in Hk.
    apply in_map_iff in Hk as (n & <- & Hi). exists (n_id n). split; [now apply cons_find|].
    apply (copy_miss m n m (revalued_refl m Hc) Hi). }
  assert (U : forall k c, known_key (copy_mgr m) k -> update2 (copy_mgr m) (destroy m) k c = UB).
  { intros k' c Hk. destruct (X _ Hk) as (i & Ei & En). unfold update2.
    change (index (copy_mgr m)) with (index m). rewrite Ei, En. reflexivity. }
  split; [|split].
  - intros Hk. destruct (X _ Hk) as (i & Ei & En). split; [|split; [|auto]].
    + unfold get_by_key2, deref2. change (index (copy_mgr m)) with (index m). rewrite Ei, En. reflexivity.
    + unfold get_time_by_key2, deref2. change (index (copy_mgr m)) with (index m). rewrite Ei, En. reflexivity.
  - intros Hk. unfold known_key in Hk. rewrite (proj1 (proj2 (C51_by_time m))) in Hk.
    apply (cons_find_none _ _ Hc) in Hk. unfold get_by_key2. simpl. now rewrite Hk.
  - intros g t c (k' & c' & Hh). apply (proj1 (holds_copy m t k' c')) in Hh as (n & Hi & Et & Ek & _).
    unfold insert2. pose proof (scan_bare t _ _ (renumber_bare (nodes m) (fresh m))) as Y.
    rewrite (scan_some (nodes m) t n (cons_sorted _ Hc) Hi Et) in Y. simpl.
    destruct (scan_at_time (renumber (fresh m) (nodes m)) t) as [n'|]; [|discriminate].
    simpl in Y. injection Y as _ Y _. rewrite Y. rewrite U; [reflexivity|].
    unfold known_key. rewrite (proj1 (proj2 (C51_by_time m))). now apply in_map.
Qed.

(** Removing a coefficient from the original does this to its key. *)
Theorem C51_removed_from_original : forall (m : mgr) t k c, consistent m -> holds m t k c ->
  exists m2, remove_coefficient_at_time m t = Ok m2 /\ get_by_key2 (copy_mgr m) m2 k = UB.
Proof.
  intros m t k c Hc Hh. pose proof (holds_node _ _ _ _ Hh) as (n & Hi & Et & Ek & _).
  unfold remove_coefficient_at_time, has_coefficient_at_time.
  rewrite (map_find_scan _ _ (cons_sorted _ Hc)), (scan_some _ _ _ (cons_sorted _ Hc) Hi Et), (cons_find _ _ Hc Hi).
  eexists. split; [reflexivity|]. unfold get_by_key2. change (index (copy_mgr m)) with (index m).
  rewrite <- Ek, (cons_find _ _ Hc Hi). unfold deref2. rewrite (copy_miss m n m (revalued_refl m Hc) Hi). simpl.
  rewrite node_by_id_none; [reflexivity|]. intros X. apply in_map_iff in X as (x & Ex & Hx).
  apply filter_In in Hx as [_ Hx]. rewrite Ex, Nat.eqb_refl in Hx. discriminate.
Qed.

(** ** A manager whose key map points to its own nodes is independent *)

Theorem C51_own_nodes : forall (own other : mgr) k, consistent own ->
  get_by_key2 own other k = get_coefficient_by_key own k /\
  get_time_by_key2 own other k = get_coefficient_time_by_key own k /\
  forall c, update2 own other k c = (let* own' := update_coefficient_by_key own k c in Ok (own', other)).
Proof.
  intros own other k Hc.
  unfold get_by_key2, get_time_by_key2, get_coefficient_by_key, get_coefficient_time_by_key, update2, update_coefficient_by_key.
  destruct (idx_find k (index own)) as [i|] eqn:E; [|auto].
  apply (cons_find_inv _ _ _ Hc) in E as (n & Hi & _ & <-). unfold deref2, deref.
  rewrite (node_by_id_in _ _ (c_ids _ Hc) Hi). auto.
Qed.

(** The original is such a manager, and so is a copy after clear: from then on
    insertions change the copy only. *)
Theorem C51_cleared_copy : forall (own other : mgr) g t c,
  consistent own -> keys_below g own -> (g + 1 < 2 ^ 64)%N ->
  exists g' own' k, insert2 g own other t c = Ok (g', own', other, k) /\ consistent own' /\ keys_below g' own' /\
    contents own' = al_insert t c (contents own) /\ get_by_key2 own' other k = Ok c.
Proof.
  intros own other g t c Hc Hb Hg.
  assert (Hg' : (g + 1 < key_mod)%N) by exact Hg.
  set (own1 := match scan_at_time (nodes own) t with Some _ => own
               | None => Mgr (nodes own) (index own) (Nat.max (fresh own) (fresh other)) end).
  assert (Hn : nodes own1 = nodes own) by (unfold own1; destruct (scan_at_time _ _); reflexivity).
  assert (Hc1 : consistent own1).
  { unfold own1. destruct (scan_at_time (nodes own) t); [exact Hc|]. destruct Hc as [A B D E F]. split; auto. simpl.
    rewrite Forall_forall in *. intros n Hin. specialize (D n Hin). lia. }
  assert (Hb1 : keys_below g own1) by (unfold keys_below, get_keys; rewrite Hn; exact Hb).
  assert (E1 : insert2 g own other t c = (let* (g', m', k) := insert_coefficient g own1 t c in Ok (g', m', other, k))).
  { unfold insert2, insert_coefficient. rewrite Hn. unfold own1. destruct (scan_at_time (nodes own) t) as [n|] eqn:Es.
    - rewrite (proj2 (proj2 (C51_own_nodes own other (n_key n) Hc))).
      destruct (update_coefficient_by_key own (n_key n) c); reflexivity.
    - simpl. destruct (map_insert _ (nodes own)) as [[? ?] ?]. reflexivity. }
  destruct (insert_general own1 g t c Hc1 Hb1 Hg') as (g' & own' & k & E & Hc' & Hb' & _ & _ & Hh & _).
  destruct (insert_contents own1 g t c Hc1 Hb1 Hg') as (? & ? & ? & E' & Ec). rewrite E in E'. injection E' as <- <- <-.
  exists g', own', k. split; [rewrite E1, E; reflexivity|]. split; [exact Hc'|]. split; [exact Hb'|]. split.
  - rewrite Ec. unfold contents. now rewrite Hn.
  - rewrite (proj1 (C51_own_nodes own' other k Hc')).
    destruct Hh as (n & Hi & _ & <- & <-). unfold get_coefficient_by_key. rewrite (cons_find _ _ Hc' Hi).
    rewrite (cons_deref _ _ Hc' Hi). reflexivity.
Qed.

(** ** checkInternalConsistency does not detect a copy until values differ *)

Lemma check_fold (f : node -> outcome unit) l : (forall n, In n l -> f n = Ok tt) -> foldM (fun _ n => f n) l tt = Ok tt.
Proof. induction l as [|n r IH]; simpl; intros Hf; [reflexivity|]. rewrite Hf by auto. simpl. auto. Qed.

Lemma check_fold_first (f : node -> outcome unit) a n b e :
  (forall x, In x a -> f x = Ok tt) -> f n = e -> e <> Ok tt -> foldM (fun _ n => f n) (a ++ n :: b) tt = e.
Proof.
  induction a as [|x r IH]; simpl; intros Ha Hn He.
  - rewrite Hn. destruct e as [[]| | |]; simpl; congruence.
  - rewrite Ha by auto. simpl. auto.
Qed.

Lemma copy_nodes m n' : In n' (nodes (copy_mgr m)) -> exists n, In n (nodes m) /\ bare n' = bare n.
Proof.
  intros Hi. apply (in_map bare) in Hi. simpl in Hi. rewrite renumber_bare in Hi.
  apply in_map_iff in Hi as (n & En & Hi). eauto.
Qed.

Lemma copy_check_node ceq m m' n' : revalued m m' -> known_key m' (n_key n') ->
  check_node2 ceq (copy_mgr m) m' n' =
    (let* c := get_coefficient_by_key m' (n_key n') in if ceq c (n_coef n') then Ok tt else Abort).
Proof.
  intros Hr Hk. pose proof Hr as (Hc & Ei & _). apply in_map_iff in Hk as (n & Ek & Hi).
  unfold check_node2, get_coefficient_by_key, deref2, deref. change (index (copy_mgr m)) with (index m).
  rewrite <- Ei, <- Ek, (cons_find _ _ Hc Hi), (copy_miss m n m' Hr Hi), (node_by_id_in _ _ (c_ids _ Hc) Hi).
  simpl. now rewrite N.eqb_refl.
Qed.

Theorem C51_check : forall ceq (m : mgr), consistent m -> (forall c, ceq c c = true) ->
  check2 ceq (copy_mgr m) m = Ok tt /\
  (nodes m <> [] -> check2 ceq (copy_mgr m) (destroy m) = UB) /\
  forall k c0 t c m2, holds m t k c0 -> ceq c c0 = false ->
    update2 (copy_mgr m) m k c = Ok (copy_mgr m, m2) -> check2 ceq (copy_mgr m) m2 = Abort.
Proof.
  intros ceq m Hc Hr.
  assert (Hlen : Nat.eqb (length (index (copy_mgr m))) (length (nodes (copy_mgr m))) = true).
  { apply Nat.eqb_eq. simpl. rewrite renumber_length, (Permutation_length (c_index _ Hc)), map_length. reflexivity. }
  unfold check2. rewrite Hlen. split; [|split].
  - apply check_fold. intros n' Hi'. destruct (copy_nodes _ _ Hi') as (n & Hi & En). injection En as Et Ek Ev.
    rewrite (copy_check_node ceq m m n' (revalued_refl m Hc)) by (unfold known_key; rewrite Ek; now apply in_map).
    unfold get_coefficient_by_key. rewrite Ek, (cons_find _ _ Hc Hi), (cons_deref _ _ Hc Hi). simpl. now rewrite Ev, Hr.
  - intros Hne. destruct (nodes (copy_mgr m)) as [|n' r] eqn:E.
    + apply (f_equal (@length _)) in E. simpl in E. rewrite renumber_length in E. destruct (nodes m); [congruence|discriminate].
    + assert (Hi' : In n' (nodes (copy_mgr m))) by (rewrite E; now left).
      destruct (copy_nodes _ _ Hi') as (n & Hi & En). injection En as Et Ek Ev.
      apply (check_fold_first _ []); [intros ? []| |discriminate].
      unfold check_node2. change (index (copy_mgr m)) with (index m). rewrite Ek, (cons_find _ _ Hc Hi).
      unfold deref2. rewrite (copy_miss m n m (revalued_refl m Hc) Hi). reflexivity.
  - intros k c0 t c m2 Hh Hce E.
    destruct (C51_independence_refuted m t k c0 c 0%N Hc Hh) as (m2' & E' & _ & Hcp & H2 & _ & Hc2 & Hrest).
    rewrite E in E'. injection E' as <-. 
    assert (Hk : known_key m k). { destruct Hh as (n & Hi & _ & <- & _). now apply in_map. }
    destruct (C51_sets_the_original m m k c (revalued_refl m Hc) Hk) as (m2' & E' & Eu & Hr2).
    rewrite E in E'. injection E' as <-.
    destruct Hcp as (n' & Hi' & Et & Ek & Ev). apply in_split in Hi' as (a & b & Hab). rewrite Hab.
    assert (Hkeys : NoDup (map n_key (a ++ n' :: b))).
    { rewrite <- Hab. change (NoDup (get_keys (copy_mgr m))). rewrite (proj1 (proj2 (C51_by_time m))). apply Hc. }
    assert (Hknown : forall x, In x (a ++ n' :: b) -> known_key m2 (n_key x)).
    { intros x Hx. rewrite <- Hab in Hx. unfold known_key.
      destruct (update_spec m k c Hc Hk) as (m3 & Eu3 & _ & _ & Ekeys & _). rewrite Eu in Eu3. injection Eu3 as <-.
      rewrite Ekeys, <- (proj1 (proj2 (C51_by_time m))). now apply in_map. }
    apply check_fold_first; [| |discriminate].
    + intros x Hx. assert (Hx' : In x (a ++ n' :: b)) by (apply in_app_iff; auto).
      rewrite (copy_check_node ceq m m2 x Hr2 (Hknown x Hx')).
      assert (Hnk : n_key x <> k).
      { rewrite map_app in Hkeys. simpl in Hkeys. apply NoDup_remove_2 in Hkeys. intros Y. apply Hkeys.
        rewrite in_app_iff. left. rewrite Ek, <- Y. now apply in_map. }
      rewrite <- Hab in Hx'.
      assert (Hhx : holds (copy_mgr m) (n_time x) (n_key x) (n_coef x)) by (exists x; repeat split; auto; apply teq_refl).
      apply (proj1 (holds_copy m _ _ _)) in Hhx. apply (Hrest _ _ _ Hnk) in Hhx as (y & Hy & _ & Eky & Evy).
      unfold get_coefficient_by_key. rewrite <- Eky, (cons_find _ _ Hc2 Hy), (cons_deref _ _ Hc2 Hy). simpl.
      now rewrite Evy, Hr.
    + rewrite (copy_check_node ceq m m2 n' Hr2) by (apply Hknown; apply in_app_iff; simpl; auto).
      rewrite Ek. destruct H2 as (y & Hy & _ & Eky & Evy).
      unfold get_coefficient_by_key. rewrite <- Eky, (cons_find _ _ Hc2 Hy), (cons_deref _ _ Hc2 Hy). simpl.
      now rewrite Evy, Ev, Hce.
Qed.

End Copy.

(** A manager with two coefficients, its copy, and what happens to them. *)
Definition two_mgr : outcome (N * mgr Z nat * list N) :=
  insert_coefficients 0%N mgr_empty [1%Z; 2%Z] [10; 20] [].

Example C51_example : exists m m2,
  two_mgr = Ok (2%N, m, [1%N; 2%N]) /\ consistent m /\ holds m 2%Z 2%N 20 /\
  update2 (copy_mgr m) m 2%N 30 = Ok (copy_mgr m, m2) /\
  contents (copy_mgr m) = [(1%Z, 10); (2%Z, 20)] /\ contents m2 = [(1%Z, 10); (2%Z, 30)] /\
  get_by_key2 (copy_mgr m) m2 2%N = Ok 30 /\
  check2 Nat.eqb (copy_mgr m) m = Ok tt /\ check2 Nat.eqb (copy_mgr m) m2 = Abort /\
  get_by_key2 (copy_mgr m) (destroy m) 2%N = UB /\ consistent (clear (copy_mgr m)) /\ keys_below 2 (clear (copy_mgr m)).
Proof.
  destruct (insert_loop_spec [(1%Z, 10); (2%Z, 20)] 0%N (mgr_empty : mgr Z nat) []) as
    (g' & m' & ks & E & Hc & _); [apply consistent_empty|constructor|reflexivity|].
  vm_compute in E. injection E as <- <- <-.
  eexists _, _. split; [vm_compute; reflexivity|]. split; [exact Hc|]. split.
  { eexists. split; [right; left; reflexivity|]. repeat split. }
  split; [vm_compute; reflexivity|]. repeat (split; [vm_compute; reflexivity|]).
  split; [apply clear_consistent|constructor].
Qed.
Print Assumptions C51_reads_the_original.
Print Assumptions C51_own_nodes.
Print Assumptions C51_check.
