(** * Lemmas about the coefficient manager model, part 3: derived facts used by the
      final theorems *)

From Coq Require Import List Bool Arith NArith Lia Permutation Sorting.Sorted.
From Verif Require Import Base TimeOrder KeyGen Manager ManagerSpec ManagerProofs ManagerProofs2.
Import ListNotations.

Section Proofs.
Context {T C : Type} `{TimeLaws T}.
Local Notation node := (node T C).
Local Notation mgr := (mgr T C).
Implicit Types (m : mgr) (n : node) (t : T) (c : C).

Lemma reachable_ok g m : reachable g m -> consistent m /\ keys_below g m /\ (g < key_mod)%N.
Proof.
  intros (n & h & w & i & Hd & Hcost & E & Em & <-).
  destruct (exec_history_good h (world_init n) (world_init_ok n) Hd) as [E'|(w' & E' & Hw & _ & _)].
  - simpl. lia.
  - congruence.
  - rewrite E in E'. injection E' as <-. destruct Hw as [Hc Hb _ Hg].
    rewrite Forall_forall in Hc, Hb. apply nth_error_In in Em. auto.
Qed.

Lemma set_coef_same n c (l : list node) :
  NoDup (map n_id l) -> In n l -> n_coef n = c -> set_coef (n_id n) c l = l.
Proof.
  intros Hn Hi <-. unfold set_coef. rewrite <- (map_id l) at 2.
  apply map_ext_in. intros x Hx.
  destruct (Nat.eqb_spec (n_id x) (n_id n)) as [E|E]; auto.
  pose proof (node_by_id_in _ _ Hn Hx) as A. pose proof (node_by_id_in _ _ Hn Hi) as B.
  rewrite E in A. rewrite A in B. injection B as ->. now destruct n.
Qed.

Lemma insert_twice m g t c g1 m1 k1 :
  consistent m -> keys_below g m -> (g + 1 < key_mod)%N ->
  insert_coefficient g m t c = Ok (g1, m1, k1) ->
  insert_coefficient g1 m1 t c = Ok (g1, m1, k1).
Proof.
  intros Hc Hb Hg E.
  destruct (insert_general m g t c Hc Hb Hg) as (g' & m' & k & E' & Hc' & _ & _ & _ & Hh & _).
  rewrite E in E'. injection E' as <- <- <-.
  destruct Hh as (n & Hi & Et & Ek & Ec). unfold insert_coefficient.
  rewrite (scan_some _ _ _ (cons_sorted _ Hc') Hi Et).
  destruct (update_ok m1 (n_key n) c Hc') as (n' & Hn' & Ek' & Eu); [now apply in_map|].
  apply (key_unique _ _ _ Hc' Hn' Hi) in Ek'. subst n'. rewrite Eu. simpl.
  rewrite set_coef_same by (auto using c_ids). rewrite Ek. now destruct m1.
Qed.

(** ** Order independence of bulk insertion *)

Definition pairwise_distinct (ts : list T) : Prop :=
  ForallOrdPairs (fun a b => teq a b = false) ts.

Lemma last_value_distinct (tcs : list (T * C)) t c :
  pairwise_distinct (map fst tcs) ->
  last_value tcs t = Some c <-> exists t', In (t', c) tcs /\ teq t' t = true.
Proof.
  unfold pairwise_distinct. induction tcs as [|[t0 c0] tcs IH]; simpl; intros Hd.
  - split; [discriminate|]. intros (t' & [] & _).
  - inversion Hd as [|? ? Hf Hd']; subst. specialize (IH Hd').
    split.
    + destruct (last_value tcs t) as [c1|] eqn:E.
      * intros [= ->]. destruct (proj1 IH eq_refl) as (t' & Hi & Et). eauto.
      * destruct (teq t0 t) eqn:Et; [|discriminate]. intros [= ->]. eauto.
    + intros (t' & [[= -> ->]|Hi] & Et).
      * destruct (last_value tcs t) as [c1|] eqn:E; [|now rewrite Et].
        exfalso.
        assert (Hno : forall tcs0 : list (T * C), Forall (fun b => teq t' b = false) (map fst tcs0) ->
                   last_value tcs0 t = None).
        { clear - Et H H0. intros tcs0. induction tcs0 as [|[t1 d] tcs0 IHn]; simpl; auto.
          intros Hf. inversion Hf; subst. rewrite IHn by assumption.
          destruct (teq t1 t) eqn:E1; auto.
          rewrite teq_sym in E1. rewrite (teq_trans _ _ _ Et E1) in H3. discriminate. }
        rewrite (Hno tcs Hf) in E. discriminate.
      * assert (E : last_value tcs t = Some c) by (apply IH; eauto). now rewrite E.
Qed.

Lemma pairwise_distinct_perm (a b : list T) :
  Permutation a b -> pairwise_distinct a -> pairwise_distinct b.
Proof.
  unfold pairwise_distinct. induction 1 as [|x a b Hp IH|x y a|a b d Hp1 IH1 Hp2 IH2]; intros Hd; auto.
  - inversion Hd; subst. constructor; auto. eapply Permutation_Forall; eauto.
  - inversion Hd as [|? ? Hf Hd']; subst. inversion Hd' as [|? ? Hf' Hd'']; subst.
    inversion Hf; subst. constructor; [constructor; [now rewrite teq_sym|assumption]|].
    constructor; assumption.
Qed.

Lemma last_value_perm (a b : list (T * C)) t :
  pairwise_distinct (map fst a) -> Permutation a b -> last_value a t = last_value b t.
Proof.
  intros Hd Hp.
  assert (Hd' : pairwise_distinct (map fst b)).
  { eapply pairwise_distinct_perm; [|exact Hd]. now apply Permutation_map. }
  destruct (last_value b t) as [c|] eqn:E.
  - apply last_value_distinct; auto. apply last_value_distinct in E as (t' & Hi & Et); auto.
    exists t'. split; auto. eapply Permutation_in; [symmetry; exact Hp|exact Hi].
  - destruct (last_value a t) as [c|] eqn:E'; auto.
    apply last_value_distinct in E' as (t' & Hi & Et); auto.
    assert (last_value b t = Some c); [|congruence].
    apply last_value_distinct; auto. exists t'. split; auto. eapply Permutation_in; eauto.
Qed.

(** ** Order independence of updateCoefficients *)

Lemma update_commute m k1 c1 k2 c2 :
  consistent m -> k1 <> k2 ->
  (let* m1 := update_coefficient_by_key m k1 c1 in update_coefficient_by_key m1 k2 c2) =
  (let* m1 := update_coefficient_by_key m k2 c2 in update_coefficient_by_key m1 k1 c1).
Proof.
  intros Hc Hne.
  destruct (in_dec N.eq_dec k1 (get_keys m)) as [H1|H1];
  destruct (in_dec N.eq_dec k2 (get_keys m)) as [H2|H2].
  - destruct (update_ok m k1 c1 Hc H1) as (n1 & Hi1 & Ek1 & E1).
    destruct (update_ok m k2 c2 Hc H2) as (n2 & Hi2 & Ek2 & E2).
    rewrite E1, E2. simpl. unfold update_coefficient_by_key. simpl.
    rewrite <- Ek1, <- Ek2, (cons_find _ _ Hc Hi1), (cons_find _ _ Hc Hi2). simpl.
    assert (Hid : n_id n1 <> n_id n2).
    { intros E. apply Hne. rewrite <- Ek1, <- Ek2.
      pose proof (node_by_id_in _ _ (c_ids _ Hc) Hi1) as A.
      pose proof (node_by_id_in _ _ (c_ids _ Hc) Hi2) as B.
      rewrite E in A. rewrite A in B. now injection B as ->. }
    assert (D : forall n i c, In n (nodes m) -> exists n', node_by_id (set_coef i c (nodes m)) (n_id n) = Some n').
    { intros n i c Hi.
      set (n' := if Nat.eqb (n_id n) i then Node (n_id n) (n_time n) (n_key n) c else n).
      exists n'. assert (En : n_id n' = n_id n) by (unfold n'; now destruct (Nat.eqb _ _)).
      rewrite <- En. apply node_by_id_in.
      - rewrite set_coef_ids. now apply c_ids.
      - apply in_set_coef. exists n. auto. }
    destruct (D n2 (n_id n1) c1 Hi2) as (n2x & ->). destruct (D n1 (n_id n2) c2 Hi1) as (n1x & ->).
    simpl. do 2 f_equal. unfold set_coef. rewrite !map_map. apply map_ext. intros x.
    destruct (Nat.eqb_spec (n_id x) (n_id n1)) as [A|A], (Nat.eqb_spec (n_id x) (n_id n2)) as [B|B];
      simpl; try congruence.
    + destruct (Nat.eqb_spec (n_id x) (n_id n2)); [congruence|].
      destruct (Nat.eqb_spec (n_id x) (n_id n1)); [reflexivity|congruence].
    + destruct (Nat.eqb_spec (n_id x) (n_id n2)); [|congruence].
      destruct (Nat.eqb_spec (n_id x) (n_id n1)); [congruence|reflexivity].
    + destruct (Nat.eqb_spec (n_id x) (n_id n2)); [congruence|].
      destruct (Nat.eqb_spec (n_id x) (n_id n1)); [congruence|reflexivity].
  - destruct (update_spec m k1 c1 Hc H1) as (m1 & -> & Hc1 & _ & Ek & _). simpl.
    rewrite (update_abort m k2 c2 Hc H2). simpl. apply update_abort; auto.
    unfold known_key. now rewrite Ek.
  - destruct (update_spec m k2 c2 Hc H2) as (m1 & -> & Hc1 & _ & Ek & _). simpl.
    rewrite (update_abort m k1 c1 Hc H1). simpl. symmetry. apply update_abort; auto.
    unfold known_key. now rewrite Ek.
  - rewrite (update_abort m k1 c1 Hc H1), (update_abort m k2 c2 Hc H2). reflexivity.
Qed.

Lemma update_many_perm kcs kcs' : Permutation kcs kcs' -> forall m,
  NoDup (map fst kcs) -> consistent m ->
  update_coefficients m kcs = update_coefficients m kcs'.
Proof.
  unfold update_coefficients.
  induction 1 as [|[k c] a b Hp IH|[k1 c1] [k2 c2] a|a b d Hp1 IH1 Hp2 IH2]; intros m Hn Hc; auto.
  - simpl in *. inversion Hn; subst.
    destruct (in_dec N.eq_dec k (get_keys m)) as [Hk|Hk].
    + destruct (update_spec m k c Hc Hk) as (m1 & -> & Hc1 & _). simpl. auto.
    + now rewrite (update_abort m k c Hc Hk).
  - simpl in Hn. inversion Hn as [|? ? Hx Hn']; subst. simpl in Hx.
    assert (Hne : k2 <> k1) by (intros ->; tauto).
    simpl.
    pose proof (update_commute m k2 c2 k1 c1 Hc Hne) as E.
    assert (Hass : forall ka ca kb cb,
      (let* s' := update_coefficient_by_key m ka ca
       in let* s'0 := update_coefficient_by_key s' kb cb
          in foldM (fun m0 kc => update_coefficient_by_key m0 (fst kc) (snd kc)) a s'0) =
      (let* m2 := (let* m1 := update_coefficient_by_key m ka ca in update_coefficient_by_key m1 kb cb) in
       foldM (fun m0 kc => update_coefficient_by_key m0 (fst kc) (snd kc)) a m2)).
    { intros ka ca kb cb. now destruct (update_coefficient_by_key m ka ca). }
    rewrite !Hass. now rewrite E.
  - rewrite IH1 by auto. apply IH2; auto. eapply Permutation_NoDup; [|exact Hn]. now apply Permutation_map.
Qed.

(** Final contents of updateCoefficients. *)
Lemma update_many_holds kcs : forall m m',
  NoDup (map fst kcs) -> consistent m -> update_coefficients m kcs = Ok m' ->
  forall t k c, holds m' t k c <->
    (In (k, c) kcs /\ exists c0, holds m t k c0) \/ (~ In k (map fst kcs) /\ holds m t k c).
Proof.
  unfold update_coefficients. induction kcs as [|[k c] kcs IH]; intros m m' Hn Hc E t k' c'.
  - simpl in *. injection E as <-. tauto.
  - simpl in *. inversion Hn as [|? ? Hx Hn']; subst.
    apply bind_ok_inv in E as (m1 & E1 & E).
    destruct (in_dec N.eq_dec k (get_keys m)) as [Hk|Hk].
    2:{ rewrite (update_abort m k c Hc Hk) in E1. discriminate. }
    destruct (update_spec m k c Hc Hk) as (m1' & E1' & Hc1 & _ & _ & Hh).
    rewrite E1 in E1'. injection E1' as <-.
    rewrite (IH m1 m' Hn' Hc1 E). 
    assert (Hex : forall t0 k0, (exists c0, holds m1 t0 k0 c0) <-> (exists c0, holds m t0 k0 c0)).
    { intros t0 k0. split.
      - intros (c0 & Hx0). apply Hh in Hx0 as [(-> & _ & Hx0)|(_ & Hx0)]; eauto.
      - intros (c0 & Hx0). destruct (N.eq_dec k0 k) as [->|Hk0].
        + exists c. apply Hh. left. eauto.
        + exists c0. apply Hh. auto. }
    rewrite Hex, Hh.
    split.
    + intros [(Hi & He)|(Hni & [(-> & -> & He)|(Hne & Hho)])].
      * auto.
      * left. auto.
      * right. split; [intros [->|Hi]; auto|auto].
    + intros [([[= <- <-]|Hi] & He)|(Hni & Hho)].
      * right. split; auto.
      * left. auto.
      * right. split; [tauto|]. right. split; [|auto]. intros ->. tauto.
Qed.

(** ** Positions *)

Lemma nth_time_key m i k t :
  nth_error (get_keys m) i = Some k -> nth_error (get_times m) i = Some t ->
  exists n, nth_error (nodes m) i = Some n /\ n_key n = k /\ n_time n = t.
Proof.
  unfold get_keys, get_times. rewrite !nth_error_map.
  destruct (nth_error (nodes m) i) as [n|]; simpl; [|discriminate].
  intros [= <-] [= <-]. eauto.
Qed.

Lemma get_by_key_ok m n :
  consistent m -> In n (nodes m) ->
  get_coefficient_by_key m (n_key n) = Ok (n_coef n) /\
  get_coefficient_time_by_key m (n_key n) = Ok (n_time n).
Proof.
  intros Hc Hi. unfold get_coefficient_by_key, get_coefficient_time_by_key.
  now rewrite (cons_find _ _ Hc Hi), (cons_deref _ _ Hc Hi).
Qed.

Lemma get_by_key_abort m k :
  consistent m -> ~ known_key m k ->
  get_coefficient_by_key m k = Abort /\ get_coefficient_time_by_key m k = Abort.
Proof.
  intros Hc Hk. unfold get_coefficient_by_key, get_coefficient_time_by_key.
  apply cons_find_none in Hk as ->; auto.
Qed.

Lemma remove_after_insert m g t c g1 m1 k1 :
  consistent m -> keys_below g m -> (g + 1 < key_mod)%N -> ~ present m t ->
  insert_coefficient g m t c = Ok (g1, m1, k1) ->
  exists m2, remove_coefficient_at_time m1 t = Ok m2 /\ consistent m2 /\ same_contents m m2.
Proof.
  intros Hc Hb Hg Hp E.
  destruct (insert_absent m g t c Hc Hb Hg Hp) as (m' & _ & _ & E' & Hc' & _ & _ & _ & Hh).
  rewrite E in E'. injection E' as -> <- ->.
  assert (Hold : holds m1 t (g + 1)%N c) by (apply Hh; left; rewrite teq_refl; auto).
  destruct (remove_present m1 t _ _ Hc' Hold) as (m2 & E2 & Hc2 & _ & _ & Hh2).
  exists m2. split; [exact E2|]. split; [exact Hc2|]. intros t' k' c'. rewrite Hh2, Hh.
  split; [|intros (A & [(B & _)|(_ & B)]); [congruence|exact B]]. intros Hx. split.
  - destruct (teq t t') eqn:Et; auto. exfalso. apply Hp. exists k', c'.
    eapply holds_teq; [|exact Hx]. now rewrite teq_sym.
  - right. split; [|exact Hx].
    destruct (teq t t') eqn:Et; auto. exfalso. apply Hp. exists k', c'.
    eapply holds_teq; [|exact Hx]. now rewrite teq_sym.
Qed.

Lemma clear_consistent m : consistent (clear m).
Proof. constructor; simpl; constructor. Qed.

Lemma consistent_empty : consistent (mgr_empty : mgr).
Proof. constructor; simpl; constructor. Qed.

End Proofs.
