(** * Lemmas about the coefficient manager model *)

From Coq Require Import List Bool Arith NArith Lia Permutation Sorting.Sorted.
From Verif Require Import Base TimeOrder KeyGen Manager ManagerSpec.
Import ListNotations.

(** ** Sorted lists *)

Lemma ssorted_app {A} (R : A -> A -> Prop) (a b : list A) :
  StronglySorted R (a ++ b) <->
  StronglySorted R a /\ StronglySorted R b /\ Forall (fun x => Forall (R x) b) a.
Proof.
  induction a as [|x a IH]; simpl.
  - split; [intros Hs; repeat split; auto; constructor | tauto].
  - split.
    + intros Hs; inversion Hs as [|? ? Hs' Hf]; subst.
      apply IH in Hs' as (Ha & Hb & Hab).
      apply Forall_app in Hf as [Hfa Hfb].
      repeat split; auto; constructor; auto.
    + intros (Ha & Hb & Hab). inversion Ha; subst. inversion Hab; subst.
      constructor; [apply IH; auto|]. apply Forall_app; auto.
Qed.

Lemma NoDup_app_iff {A} (a b : list A) :
  NoDup (a ++ b) <-> NoDup a /\ NoDup b /\ (forall x, In x a -> ~ In x b).
Proof.
  induction a as [|x a IH]; simpl.
  - split; [intros Hn; repeat split; auto; constructor | tauto].
  - rewrite !NoDup_cons_iff, IH, in_app_iff. split.
    + intros [Hx (Ha & Hb & Hab)]. repeat split; auto.
      intros y [->|Hy]; auto.
    + intros [[Hx Ha] [Hb Hab]]. repeat split; auto.
      intros [Hy|Hy]; [auto|]. apply (Hab x); auto.
Qed.

(** ** The key map *)

Lemma idx_find_in k i (l : list (N * nid)) : idx_find k l = Some i -> In (k, i) l.
Proof.
  induction l as [|[k' i'] l IH]; simpl; [discriminate|].
  destruct (N.eqb_spec k' k) as [->|Hne]; [intros [= ->]; auto | auto].
Qed.

Lemma idx_find_none k (l : list (N * nid)) : idx_find k l = None <-> ~ In k (map fst l).
Proof.
  induction l as [|[k' i'] l IH]; simpl; [tauto|].
  destruct (N.eqb_spec k' k) as [->|Hne]; [split; [discriminate | tauto]|].
  rewrite IH. tauto.
Qed.

Lemma idx_in_find k i (l : list (N * nid)) :
  NoDup (map fst l) -> In (k, i) l -> idx_find k l = Some i.
Proof.
  induction l as [|[k' i'] l IH]; simpl; [tauto|].
  intros Hn Hi. apply NoDup_cons_iff in Hn as [Hk Hn].
  destruct Hi as [[= -> ->]|Hi]; [now rewrite N.eqb_refl|].
  destruct (N.eqb_spec k' k) as [->|Hne]; auto.
  exfalso. apply Hk. change k with (fst (k, i)). now apply in_map.
Qed.

Lemma idx_set_absent k i (l : list (N * nid)) :
  ~ In k (map fst l) -> Permutation (idx_set k i l) ((k, i) :: l).
Proof.
  induction l as [|[k' i'] l IH]; simpl; intros Hk; [reflexivity|].
  destruct (N.eqb_spec k' k) as [->|Hne]; [tauto|].
  etransitivity; [apply perm_skip, IH; tauto | apply perm_swap].
Qed.

Lemma idx_insert_absent k i (l : list (N * nid)) :
  ~ In k (map fst l) -> Permutation (idx_insert k i l) ((k, i) :: l).
Proof.
  intros Hk. unfold idx_insert.
  apply idx_find_none in Hk as E. rewrite E. now apply idx_set_absent.
Qed.

Lemma idx_set_present k i i' (a b : list (N * nid)) :
  ~ In k (map fst a) -> idx_set k i (a ++ (k, i') :: b) = a ++ (k, i) :: b.
Proof.
  induction a as [|[k0 i0] a IH]; simpl; intros Hk.
  - now rewrite N.eqb_refl.
  - destruct (N.eqb_spec k0 k) as [->|Hne]; [tauto|]. rewrite IH; tauto.
Qed.

Lemma idx_erase_present k i (a b : list (N * nid)) :
  ~ In k (map fst a) -> idx_erase k (a ++ (k, i) :: b) = a ++ b.
Proof.
  induction a as [|[k0 i0] a IH]; simpl; intros Hk.
  - now rewrite N.eqb_refl.
  - destruct (N.eqb_spec k0 k) as [->|Hne]; [tauto|]. rewrite IH; tauto.
Qed.

(** Splitting an association list without repeated keys at a key. *)
Lemma idx_split k i (l : list (N * nid)) :
  NoDup (map fst l) -> In (k, i) l ->
  exists a b, l = a ++ (k, i) :: b /\ ~ In k (map fst a) /\ ~ In k (map fst b).
Proof.
  intros Hn Hi. apply in_split in Hi as (a & b & ->).
  exists a, b. split; [reflexivity|].
  rewrite map_app in Hn. simpl in Hn.
  apply NoDup_remove_2 in Hn. rewrite in_app_iff in Hn. tauto.
Qed.

Section Proofs.
Context {T C : Type} `{TimeLaws T}.
Local Notation node := (node T C).
Local Notation mgr := (mgr T C).
Implicit Types (m : mgr) (n : node) (l : list node) (t : T) (c : C).

Definition nlt n1 n2 : Prop := tlt (n_time n1) (n_time n2) = true.

Lemma sorted_map l :
  StronglySorted t_lt (map n_time l) <-> StronglySorted nlt l.
Proof.
  induction l as [|n l IH]; simpl.
  - split; intros; constructor.
  - split; intros Hs; inversion Hs as [|? ? Hs' Hf]; subst; constructor;
      try (apply IH; assumption).
    + rewrite Forall_map in Hf. exact Hf.
    + rewrite Forall_map. exact Hf.
Qed.

Lemma sorted_split a n b :
  StronglySorted nlt (a ++ n :: b) ->
  Forall (fun x => tlt (n_time x) (n_time n) = true) a /\
  Forall (fun x => tlt (n_time n) (n_time x) = true) b.
Proof.
  intros Hs. apply ssorted_app in Hs as (_ & Hb & Hab).
  inversion Hb; subst. split; [|assumption].
  eapply Forall_impl; [|exact Hab]. intros x Hx. inversion Hx; subst. assumption.
Qed.

Lemma sorted_unique l n n' t :
  StronglySorted nlt l -> In n l -> In n' l ->
  teq (n_time n) t = true -> teq (n_time n') t = true -> n = n'.
Proof.
  intros Hs Hn Hn' E E'.
  assert (Enn : teq (n_time n) (n_time n') = true).
  { eapply teq_trans; [exact E|]. now rewrite teq_sym. }
  apply in_split in Hn as (a & b & ->).
  apply sorted_split in Hs as [Ha Hb].
  rewrite in_app_iff in Hn'. rewrite Forall_forall in Ha, Hb.
  apply teq_spec in Enn as [E1 E2].
  destruct Hn' as [Hn'|[->|Hn']]; [| reflexivity |].
  - specialize (Ha _ Hn'). congruence.
  - specialize (Hb _ Hn'). congruence.
Qed.

(** ** Searching by time *)

Lemma scan_spec l t :
  StronglySorted nlt l ->
  (exists n, In n l /\ teq (n_time n) t = true /\ scan_at_time l t = Some n) \/
  (Forall (fun n => teq (n_time n) t = false) l /\ scan_at_time l t = None).
Proof.
  induction l as [|n l IH]; intros Hs; simpl.
  - right. split; auto.
  - inversion Hs as [|? ? Hs' Hf]; subst.
    destruct (tle t (n_time n)) eqn:E1.
    + destruct (tle (n_time n) t) eqn:E2.
      * left. exists n. repeat split; auto. apply tle_antisym; auto.
      * right. split; [|reflexivity].
        rewrite ?tle_def in E2. rewrite negb_false_iff in E2.
        constructor.
        -- apply teq_false. auto.
        -- eapply Forall_impl; [|exact Hf]. intros x Hx. unfold nlt in Hx.
           apply teq_false. right. eapply tlt_trans; eauto.
    + rewrite ?tle_def in E1. rewrite negb_false_iff in E1.
      destruct (IH Hs') as [(n' & Hi & E & Hsc) | [Hfa Hsc]].
      * left. exists n'. auto.
      * right. split; auto. constructor; auto. apply teq_false. auto.
Qed.

Lemma scan_some l t n :
  StronglySorted nlt l -> In n l -> teq (n_time n) t = true -> scan_at_time l t = Some n.
Proof.
  intros Hs Hi E. destruct (scan_spec l t Hs) as [(n' & Hi' & E' & ->) | [Hf _]].
  - f_equal. eapply sorted_unique; eauto.
  - rewrite Forall_forall in Hf. rewrite (Hf _ Hi) in E. discriminate.
Qed.

Lemma map_find_teq l t : map_find l t = find (fun n => teq (n_time n) t) l.
Proof. unfold map_find. induction l as [|n l IH]; cbn; [reflexivity|]. now rewrite tequiv_teq, IH. Qed.

Lemma map_find_scan l t :
  StronglySorted nlt l -> map_find l t = scan_at_time l t.
Proof.
  intros Hs. rewrite map_find_teq.
  destruct (find (fun n => teq (n_time n) t) l) as [n|] eqn:E.
  - apply find_some in E as [Hi E]. symmetry. apply scan_some; auto.
  - destruct (scan_spec l t Hs) as [(n' & Hi' & E' & _) | [_ ->]]; [|reflexivity].
    pose proof (find_none _ _ E _ Hi') as X. simpl in X. congruence.
Qed.

(** ** Inserting into the time map *)

Lemma map_insert_spec new l :
  StronglySorted nlt l ->
  (exists n, In n l /\ teq (n_time n) (n_time new) = true /\
             map_insert new l = (l, n_id n, false)) \/
  (exists a b, l = a ++ b /\
     Forall (fun x => tlt (n_time x) (n_time new) = true) a /\
     Forall (fun x => tlt (n_time new) (n_time x) = true) b /\
     map_insert new l = (a ++ new :: b, n_id new, true)).
Proof.
  induction l as [|n l IH]; intros Hs; simpl.
  - right. exists [], []. repeat split; auto.
  - inversion Hs as [|? ? Hs' Hf]; subst.
    destruct (tlt (n_time new) (n_time n)) eqn:E1.
    + right. exists [], (n :: l). repeat split; auto. constructor; auto.
      eapply Forall_impl; [|exact Hf]. intros x Hx. unfold nlt in Hx. eapply tlt_trans; eauto.
    + destruct (tlt (n_time n) (n_time new)) eqn:E2.
      * destruct (IH Hs') as [(n' & Hi & E & ->) | (a & b & -> & Ha & Hb & ->)].
        -- left. exists n'. auto.
        -- right. exists (n :: a), b. repeat split; auto.
      * left. exists n. repeat split; auto. apply teq_spec. auto.
Qed.

Lemma map_insert_absent new l :
  StronglySorted nlt l ->
  Forall (fun n => teq (n_time n) (n_time new) = false) l ->
  exists a b, l = a ++ b /\
     Forall (fun x => tlt (n_time x) (n_time new) = true) a /\
     Forall (fun x => tlt (n_time new) (n_time x) = true) b /\
     map_insert new l = (a ++ new :: b, n_id new, true).
Proof.
  intros Hs Hf. destruct (map_insert_spec new l Hs) as [(n & Hi & E & _)|Hx]; auto.
  rewrite Forall_forall in Hf. rewrite (Hf _ Hi) in E. discriminate.
Qed.

Lemma sorted_insert new a b :
  StronglySorted nlt (a ++ b) ->
  Forall (fun x => tlt (n_time x) (n_time new) = true) a ->
  Forall (fun x => tlt (n_time new) (n_time x) = true) b ->
  StronglySorted nlt (a ++ new :: b).
Proof.
  intros Hs Ha Hb. apply ssorted_app in Hs as (Hsa & Hsb & Hab).
  apply ssorted_app. repeat split; auto.
  - constructor; auto.
  - rewrite Forall_forall in *. intros x Hx. constructor; [apply Ha; auto|]. apply Hab; auto.
Qed.

(** ** Nodes by identity *)

Lemma node_by_id_in l n :
  NoDup (map n_id l) -> In n l -> node_by_id l (n_id n) = Some n.
Proof.
  induction l as [|n' l IH]; simpl; [tauto|].
  intros Hn [->|Hi].
  - now rewrite Nat.eqb_refl.
  - apply NoDup_cons_iff in Hn as [Hk Hn].
    destruct (Nat.eqb_spec (n_id n') (n_id n)) as [E|E]; auto.
    exfalso. apply Hk. rewrite E. now apply in_map.
Qed.

Lemma node_by_id_some l i n :
  node_by_id l i = Some n -> In n l /\ n_id n = i.
Proof.
  intros E. apply find_some in E as [Hi E]. apply Nat.eqb_eq in E. auto.
Qed.

Lemma node_by_id_none l i : ~ In i (map n_id l) -> node_by_id l i = None.
Proof.
  intros Hn. unfold node_by_id.
  destruct (find _ l) as [n|] eqn:E; auto.
  apply find_some in E as [Hi E]. apply Nat.eqb_eq in E. subst.
  exfalso. apply Hn. now apply in_map.
Qed.

Lemma set_coef_times i c l : map n_time (set_coef i c l) = map n_time l.
Proof.
  unfold set_coef. rewrite map_map. apply map_ext. intros n. now destruct (Nat.eqb _ _).
Qed.
Lemma set_coef_keys i c l : map n_key (set_coef i c l) = map n_key l.
Proof.
  unfold set_coef. rewrite map_map. apply map_ext. intros n. now destruct (Nat.eqb _ _).
Qed.
Lemma set_coef_ids i c l : map n_id (set_coef i c l) = map n_id l.
Proof.
  unfold set_coef. rewrite map_map. apply map_ext. intros n. now destruct (Nat.eqb _ _).
Qed.
Lemma set_coef_pairs i c l :
  map (fun n => (n_key n, n_id n)) (set_coef i c l) = map (fun n => (n_key n, n_id n)) l.
Proof.
  unfold set_coef. rewrite map_map. apply map_ext. intros n. now destruct (Nat.eqb _ _).
Qed.
Lemma set_coef_length i c l : length (set_coef i c l) = length l.
Proof. unfold set_coef. apply map_length. Qed.

Lemma in_set_coef i c l n' :
  In n' (set_coef i c l) <->
  exists n, In n l /\ n' = if Nat.eqb (n_id n) i then Node (n_id n) (n_time n) (n_key n) c else n.
Proof.
  unfold set_coef. rewrite in_map_iff. split; intros (n & A & B); exists n; auto.
Qed.

Lemma map_erase_split i a n b :
  NoDup (map n_id (a ++ n :: b)) -> n_id n = i -> map_erase i (a ++ n :: b) = a ++ b.
Proof.
  intros Hn <-. unfold map_erase. rewrite map_app in Hn. simpl in Hn.
  apply NoDup_remove_2 in Hn. rewrite in_app_iff in Hn.
  rewrite filter_app. simpl. rewrite Nat.eqb_refl. simpl.
  assert (X : forall l0, ~ In (n_id n) (map n_id l0) ->
    filter (fun n0 : node => negb (Nat.eqb (n_id n0) (n_id n))) l0 = l0).
  { induction l0 as [|x l0 IH]; simpl; auto. intros Hx.
    destruct (Nat.eqb_spec (n_id x) (n_id n)) as [E|E]; simpl; [tauto|].
    rewrite IH; tauto. }
  rewrite !X; tauto.
Qed.

(** ** Consequences of consistency *)

Lemma cons_sorted m : consistent m -> StronglySorted nlt (nodes m).
Proof. intros [Hs _ _ _ _]. now apply sorted_map. Qed.

Lemma cons_index_keys m : consistent m -> Permutation (map fst (index m)) (get_keys m).
Proof.
  intros [_ _ _ _ Hp]. apply (Permutation_map fst) in Hp. rewrite map_map in Hp. exact Hp.
Qed.

Lemma cons_index_nodup m : consistent m -> NoDup (map fst (index m)).
Proof.
  intros Hc. eapply Permutation_NoDup; [symmetry; apply cons_index_keys; auto|].
  apply c_keys; auto.
Qed.

Lemma cons_find m n :
  consistent m -> In n (nodes m) -> idx_find (n_key n) (index m) = Some (n_id n).
Proof.
  intros Hc Hi. apply idx_in_find; [now apply cons_index_nodup|].
  eapply Permutation_in; [symmetry; apply c_index; auto|].
  apply in_map_iff. eauto.
Qed.

Lemma cons_find_inv m k i :
  consistent m -> idx_find k (index m) = Some i ->
  exists n, In n (nodes m) /\ n_key n = k /\ n_id n = i.
Proof.
  intros Hc Hf. apply idx_find_in in Hf.
  eapply Permutation_in in Hf; [|apply c_index; auto].
  apply in_map_iff in Hf as (n & [= <- <-] & Hi). eauto.
Qed.

Lemma cons_find_none m k :
  consistent m -> idx_find k (index m) = None <-> ~ known_key m k.
Proof.
  intros Hc. rewrite idx_find_none. unfold known_key.
  split; intros Hx Hy; apply Hx.
  - eapply Permutation_in; [symmetry; now apply cons_index_keys | exact Hy].
  - eapply Permutation_in; [now apply cons_index_keys | exact Hy].
Qed.

Lemma cons_deref m n :
  consistent m -> In n (nodes m) -> deref m (At (n_id n)) = Ok n.
Proof.
  intros Hc Hi. unfold deref. rewrite (node_by_id_in _ _ (c_ids _ Hc) Hi). reflexivity.
Qed.

Lemma key_unique m n n' :
  consistent m -> In n (nodes m) -> In n' (nodes m) -> n_key n = n_key n' -> n = n'.
Proof.
  intros Hc Hn Hn' E.
  pose proof (cons_find _ _ Hc Hn) as E1. pose proof (cons_find _ _ Hc Hn') as E2.
  rewrite E in E1. rewrite E1 in E2. injection E2 as Eid.
  pose proof (node_by_id_in _ _ (c_ids _ Hc) Hn) as A.
  pose proof (node_by_id_in _ _ (c_ids _ Hc) Hn') as B. congruence.
Qed.

Lemma holds_unique m t k c k' c' :
  consistent m -> holds m t k c -> holds m t k' c' -> k = k' /\ c = c'.
Proof.
  intros Hc (n & Hn & E & <- & <-) (n' & Hn' & E' & <- & <-).
  rewrite (sorted_unique _ _ _ _ (cons_sorted _ Hc) Hn Hn' E E'). auto.
Qed.

Lemma holds_teq m t t' k c : teq t t' = true -> holds m t k c -> holds m t' k c.
Proof.
  intros E (n & Hn & E' & Ek & Ec). exists n. repeat split; auto.
  eapply teq_trans; eauto.
Qed.

Lemma present_has m t :
  consistent m -> has_coefficient_at_time m t = true <-> present m t.
Proof.
  intros Hc. unfold has_coefficient_at_time.
  rewrite map_find_scan by now apply cons_sorted.
  destruct (scan_spec (nodes m) t (cons_sorted _ Hc)) as [(n & Hi & E & ->) | [Hf ->]].
  - split; auto. intros _. exists (n_key n), (n_coef n), n. auto.
  - split; [discriminate|]. intros (k & c & n & Hn & E & _).
    rewrite Forall_forall in Hf. rewrite (Hf _ Hn) in E. discriminate.
Qed.

Lemma not_present_forall m t :
  ~ present m t -> Forall (fun n => teq (n_time n) t = false) (nodes m).
Proof.
  intros Hp. apply Forall_forall. intros n Hn.
  destruct (teq (n_time n) t) eqn:E; auto.
  exfalso. apply Hp. exists (n_key n), (n_coef n), n. auto.
Qed.

Lemma scan_none_not_present m t :
  Forall (fun n => teq (n_time n) t = false) (nodes m) -> ~ present m t.
Proof.
  intros Hf (k & c & n & Hn & E & _). rewrite Forall_forall in Hf.
  rewrite (Hf _ Hn) in E. discriminate.
Qed.

(** Building a consistent manager by inserting a new node between [a] and [b]. *)
Lemma consistent_insert m a b k t c (idx : list (N * nid)) :
  consistent m -> nodes m = a ++ b ->
  Forall (fun x => tlt (n_time x) t = true) a ->
  Forall (fun x => tlt t (n_time x) = true) b ->
  ~ known_key m k ->
  Permutation idx ((k, fresh m) :: index m) ->
  consistent (Mgr (a ++ Node (fresh m) t k c :: b) idx (S (fresh m))).
Proof.
  intros Hc El Ha Hb Hk Hp. constructor; simpl.
  - apply sorted_map. apply sorted_insert; auto. rewrite <- El. now apply cons_sorted.
  - rewrite map_app. simpl.
    apply NoDup_Add with (a := fresh m) (l := map n_id a ++ map n_id b).
    + apply Add_app.
    + rewrite <- map_app, <- El. split; [apply c_ids; auto|].
      intros Hi. apply in_map_iff in Hi as (n & E & Hi).
      pose proof (c_fresh _ Hc) as Hf. rewrite Forall_forall in Hf. specialize (Hf _ Hi). lia.
  - pose proof (c_fresh _ Hc) as Hf. rewrite El in Hf. apply Forall_app in Hf as [Hfa Hfb].
    apply Forall_app. split; [eapply Forall_impl; [|exact Hfa]; simpl; lia|].
    constructor; [simpl; lia|]. eapply Forall_impl; [|exact Hfb]. simpl. lia.
  - unfold get_keys. simpl. rewrite map_app. simpl.
    apply NoDup_Add with (a := k) (l := map n_key a ++ map n_key b).
    + apply Add_app.
    + rewrite <- map_app, <- El. split; [apply c_keys; auto | exact Hk].
  - etransitivity; [exact Hp|]. rewrite map_app. simpl.
    etransitivity; [|apply Permutation_middle]. apply perm_skip.
    rewrite <- map_app, <- El. now apply c_index.
Qed.

Lemma holds_insert m a b k t c idx t' k' c' :
  nodes m = a ++ b ->
  Forall (fun n => teq (n_time n) t = false) (nodes m) ->
  holds (Mgr (a ++ Node (fresh m) t k c :: b) idx (S (fresh m))) t' k' c' <->
  (teq t t' = true /\ k' = k /\ c' = c) \/ (teq t t' = false /\ holds m t' k' c').
Proof.
  intros El Hf. unfold holds. simpl. rewrite El. split.
  - intros (n & Hi & E & Ek & Ec). rewrite in_app_iff in Hi. simpl in Hi.
    destruct Hi as [Hi|[<-|Hi]].
    + right. split.
      * rewrite Forall_forall in Hf. rewrite El in Hf.
        destruct (teq t t') eqn:Et; auto.
        specialize (Hf n ltac:(rewrite in_app_iff; auto)).
        rewrite (teq_sym t t') in Et. rewrite (teq_trans _ _ _ E Et) in Hf. discriminate.
      * exists n. rewrite in_app_iff. auto.
    + left. simpl in *. auto.
    + right. split.
      * rewrite Forall_forall in Hf. rewrite El in Hf.
        destruct (teq t t') eqn:Et; auto.
        specialize (Hf n ltac:(rewrite in_app_iff; auto)).
        rewrite (teq_sym t t') in Et. rewrite (teq_trans _ _ _ E Et) in Hf. discriminate.
      * exists n. rewrite in_app_iff. auto.
  - intros [(E & -> & ->) | (E & n & Hi & E' & Ek & Ec)].
    + exists (Node (fresh m) t k c). rewrite in_app_iff. simpl. auto.
    + exists n. rewrite in_app_iff in *. simpl. tauto.
Qed.

(** ** updateCoefficientByKey *)

Lemma update_ok m k c :
  consistent m -> known_key m k ->
  exists n, In n (nodes m) /\ n_key n = k /\
    update_coefficient_by_key m k c = Ok (Mgr (set_coef (n_id n) c (nodes m)) (index m) (fresh m)).
Proof.
  intros Hc Hk. apply in_map_iff in Hk as (n & <- & Hi).
  exists n. repeat split; auto. unfold update_coefficient_by_key.
  rewrite (cons_find _ _ Hc Hi), (cons_deref _ _ Hc Hi). reflexivity.
Qed.

Lemma update_abort m k c :
  consistent m -> ~ known_key m k -> update_coefficient_by_key m k c = Abort.
Proof.
  intros Hc Hk. unfold update_coefficient_by_key.
  apply cons_find_none in Hk as ->; auto.
Qed.

Lemma consistent_set_coef m i c :
  consistent m -> consistent (Mgr (set_coef i c (nodes m)) (index m) (fresh m)).
Proof.
  intros [A B D E F]. constructor; unfold get_times, get_keys in *; simpl.
  - now rewrite set_coef_times.
  - now rewrite set_coef_ids.
  - apply Forall_forall. intros n' Hi. apply in_set_coef in Hi as (n & Hi & ->).
    rewrite Forall_forall in D. specialize (D _ Hi). now destruct (Nat.eqb _ _).
  - now rewrite set_coef_keys.
  - now rewrite set_coef_pairs.
Qed.

Lemma holds_set_coef m n c t' k' c' :
  consistent m -> In n (nodes m) ->
  holds (Mgr (set_coef (n_id n) c (nodes m)) (index m) (fresh m)) t' k' c' <->
  (k' = n_key n /\ teq (n_time n) t' = true /\ c' = c) \/
  (k' <> n_key n /\ holds m t' k' c').
Proof.
  intros Hc Hn. unfold holds. simpl. split.
  - intros (n' & Hi & E & <- & <-). apply in_set_coef in Hi as (x & Hx & ->).
    destruct (Nat.eqb_spec (n_id x) (n_id n)) as [Ei|Ei]; simpl in *.
    + left.
      pose proof (node_by_id_in _ _ (c_ids _ Hc) Hx) as A.
      pose proof (node_by_id_in _ _ (c_ids _ Hc) Hn) as B.
      rewrite Ei in A. rewrite A in B. injection B as ->. auto.
    + right. split; [|eauto].
      intros Ek. apply Ei. now rewrite (key_unique _ _ _ Hc Hx Hn Ek).
  - intros [(-> & E & ->) | (Hk & x & Hx & E & <- & <-)].
    + exists (Node (n_id n) (n_time n) (n_key n) c). simpl. repeat split; auto.
      apply in_set_coef. exists n. rewrite Nat.eqb_refl. auto.
    + exists x. repeat split; auto. apply in_set_coef. exists x. split; auto.
      destruct (Nat.eqb_spec (n_id x) (n_id n)) as [Ei|Ei]; auto.
      exfalso. apply Hk. 
      pose proof (node_by_id_in _ _ (c_ids _ Hc) Hx) as A.
      pose proof (node_by_id_in _ _ (c_ids _ Hc) Hn) as B.
      rewrite Ei in A. rewrite A in B. now injection B as ->.
Qed.

(** The complete effect of [updateCoefficientByKey]. *)
Lemma update_spec m k c :
  consistent m -> known_key m k ->
  exists m', update_coefficient_by_key m k c = Ok m' /\ consistent m' /\
    get_times m' = get_times m /\ get_keys m' = get_keys m /\
    (forall t' k' c', holds m' t' k' c' <->
       (k' = k /\ c' = c /\ exists c0, holds m t' k c0) \/ (k' <> k /\ holds m t' k' c')).
Proof.
  intros Hc Hk. destruct (update_ok m k c Hc Hk) as (n & Hn & <- & E).
  eexists. split; [exact E|]. split; [now apply consistent_set_coef|].
  split; [apply set_coef_times|]. split; [apply set_coef_keys|].
  intros t' k' c'. rewrite holds_set_coef by auto.
  split; (intros [X|X]; [left|right; tauto]).
  - destruct X as (-> & Et & ->). repeat split; auto. exists (n_coef n), n. auto.
  - destruct X as (-> & -> & c0 & x & Hx & Et & Ek & Ec). repeat split; auto.
    rewrite <- (key_unique _ _ _ Hc Hx Hn Ek). exact Et.
Qed.

(** ** insertCoefficient *)

Lemma next_key_nowrap g : (g + 1 < key_mod)%N -> next_key g = (g + 1)%N.
Proof. intros Hg. unfold next_key. now apply N.mod_small. Qed.

Lemma below_not_known m g :
  keys_below g m -> ~ known_key m (g + 1)%N.
Proof.
  intros Hb Hk. unfold keys_below in Hb. rewrite Forall_forall in Hb.
  specialize (Hb _ Hk). lia.
Qed.

Lemma keys_below_mono g g' m : (g <= g')%N -> keys_below g m -> keys_below g' m.
Proof. intros Hg. apply Forall_impl. intros; lia. Qed.

(** Effect when there is already a coefficient at the time. *)
Lemma insert_present m g t c k0 c0 :
  consistent m -> holds m t k0 c0 ->
  exists m', insert_coefficient g m t c = Ok (g, m', k0) /\ consistent m' /\
    get_times m' = get_times m /\ get_keys m' = get_keys m /\
    (forall t' k' c', holds m' t' k' c' <->
       (teq t t' = true /\ k' = k0 /\ c' = c) \/ (teq t t' = false /\ holds m t' k' c')).
Proof.
  intros Hc (n & Hn & E & <- & <-). unfold insert_coefficient.
  rewrite (scan_some _ _ _ (cons_sorted _ Hc) Hn E).
  destruct (update_ok m (n_key n) c Hc) as (n' & Hn' & Ek & Eu).
  { apply in_map. exact Hn. }
  apply (key_unique _ _ _ Hc Hn' Hn) in Ek. subst n'.
  rewrite Eu. simpl. eexists. split; [reflexivity|]. split; [now apply consistent_set_coef|].
  split; [apply set_coef_times|]. split; [apply set_coef_keys|].
  intros t' k' c'. rewrite holds_set_coef by auto.
  rewrite <- (teq_cong _ _ t' E).
  split.
  - intros [(-> & E' & ->) | (Hk & Hh)]; [auto|]. right. split; auto.
    destruct (teq (n_time n) t') eqn:E'; auto. exfalso. apply Hk.
    destruct Hh as (x & Hx & Ex & <- & _).
    now rewrite (sorted_unique _ _ _ _ (cons_sorted _ Hc) Hx Hn Ex E').
  - intros [(E' & -> & ->) | (E' & Hh)]; [auto|]. right. split; auto.
    intros ->. destruct Hh as (x & Hx & Ex & Ek & _).
    rewrite (key_unique _ _ _ Hc Hx Hn Ek) in Ex. congruence.
Qed.

(** Effect when there is no coefficient at the time. *)
Lemma insert_absent m g t c :
  consistent m -> keys_below g m -> (g + 1 < key_mod)%N -> ~ present m t ->
  exists m' a b, insert_coefficient g m t c = Ok ((g + 1)%N, m', (g + 1)%N) /\ consistent m' /\
    get_times m = a ++ b /\ get_times m' = a ++ t :: b /\
    Permutation (get_keys m') ((g + 1)%N :: get_keys m) /\
    (forall t' k' c', holds m' t' k' c' <->
       (teq t t' = true /\ k' = (g + 1)%N /\ c' = c) \/ (teq t t' = false /\ holds m t' k' c')).
Proof.
  intros Hc Hb Hg Hp. unfold insert_coefficient.
  pose proof (not_present_forall _ _ Hp) as Hf.
  destruct (scan_spec (nodes m) t (cons_sorted _ Hc)) as [(n & Hi & E & _) | [_ ->]].
  { rewrite Forall_forall in Hf. rewrite (Hf _ Hi) in E. discriminate. }
  rewrite (next_key_nowrap _ Hg).
  destruct (map_insert_absent (Node (fresh m) t (g + 1)%N c) (nodes m) (cons_sorted _ Hc))
    as (a & b & El & Ha & Hbb & Ei); [exact Hf|].
  rewrite Ei. simpl. simpl in Ha, Hbb.
  assert (Hk : ~ known_key m (g + 1)%N) by now apply below_not_known.
  eexists _, (map n_time a), (map n_time b).
  split; [reflexivity|]. split.
  { eapply consistent_insert; eauto. apply idx_set_absent.
    intros Hx. apply Hk. eapply Permutation_in; [apply cons_index_keys; auto | exact Hx]. }
  split; [unfold get_times; now rewrite El, map_app|].
  split; [unfold get_times; simpl; rewrite map_app; reflexivity|].
  split.
  { unfold get_keys. simpl. rewrite El, !map_app. simpl. symmetry. apply Permutation_middle. }
  intros t' k' c'. eapply holds_insert; eauto.
Qed.

(** Summary used for invariants. *)
Lemma insert_general m g t c :
  consistent m -> keys_below g m -> (g + 1 < key_mod)%N ->
  exists g' m' k, insert_coefficient g m t c = Ok (g', m', k) /\
    consistent m' /\ keys_below g' m' /\ (g <= g' <= g + 1)%N /\
    (exists new, Permutation (get_keys m') (new ++ get_keys m) /\ Forall (fun k => (g < k <= g')%N) new /\
       NoDup new) /\
    holds m' t k c /\
    (forall t' k' c', holds m' t' k' c' <->
       (teq t t' = true /\ k' = k /\ c' = c) \/ (teq t t' = false /\ holds m t' k' c')).
Proof.
  intros Hc Hb Hg.
  destruct (has_coefficient_at_time m t) eqn:Eh.
  - apply present_has in Eh as (k0 & c0 & Hh); auto.
    destruct (insert_present m g t c k0 c0 Hc Hh) as (m' & E & Hc' & Et & Ek & Hholds).
    exists g, m', k0.
    split; [exact E|]. split; [exact Hc'|].
    split; [unfold keys_below; now rewrite Ek|]. split; [lia|].
    split; [exists []; rewrite Ek; simpl; repeat split; auto; constructor|].
    split; [apply Hholds; left; rewrite teq_refl; auto | exact Hholds].
  - assert (Hp : ~ present m t).
    { intros Hp. apply present_has in Hp; auto. congruence. }
    destruct (insert_absent m g t c Hc Hb Hg Hp) as (m' & a & b & E & Hc' & _ & _ & Ek & Hholds).
    exists (g + 1)%N, m', (g + 1)%N.
    split; [exact E|]. split; [exact Hc'|].
    split.
    { unfold keys_below. eapply Permutation_Forall; [symmetry; exact Ek|].
      constructor; [lia|]. eapply keys_below_mono; [|exact Hb]. lia. }
    split; [lia|].
    split.
    { exists [(g + 1)%N]. simpl. split; [exact Ek|]. split.
      - constructor; [lia|constructor].
      - constructor; [auto|constructor]. }
    split; [apply Hholds; left; rewrite teq_refl; auto | exact Hholds].
Qed.

(** ** insertCoefficients *)

Lemma insert_loop_spec : forall tcs g m out,
  consistent m -> keys_below g m -> (g + N.of_nat (length tcs) < key_mod)%N ->
  exists g' m' ks, insert_loop g m tcs out = Ok (g', m', out ++ ks) /\
    consistent m' /\ keys_below g' m' /\ (g <= g' <= g + N.of_nat (length tcs))%N /\
    (exists new, Permutation (get_keys m') (new ++ get_keys m) /\
       Forall (fun k => (g < k <= g')%N) new /\ NoDup new) /\
    length ks = length tcs /\
    (forall i t c k, nth_error tcs i = Some (t, c) -> nth_error ks i = Some k ->
       exists c', holds m' t k c') /\
    (forall t k c0, holds m t k c0 -> exists c', holds m' t k c') /\
    (forall t k c, holds m' t k c ->
       match last_value tcs t with Some c' => c = c' | None => holds m t k c end) /\
    (forall t c, last_value tcs t = Some c -> exists k, holds m' t k c) /\
    (forall t k c, last_value tcs t = None -> holds m t k c -> holds m' t k c).
Proof.
  induction tcs as [|[t c] tcs IH]; intros g m out Hc Hb Hg.
  - simpl. exists g, m, []. rewrite app_nil_r.
    split; [reflexivity|]. split; [exact Hc|]. split; [exact Hb|]. split; [lia|].
    split; [exists []; simpl; repeat split; auto; constructor|].
    split; [reflexivity|].
    split; [intros [|i] ? ? ? Hx; discriminate|].
    split; [eauto|]. split; [auto|]. split; [intros ? ? Hx; discriminate | auto].
  - cbn [length] in Hg. rewrite Nat2N.inj_succ in Hg.
    destruct (insert_general m g t c Hc Hb) as
      (g1 & m1 & k & E & Hc1 & Hb1 & Hg1 & (new1 & Hp1 & Hn1 & Hd1) & Hh & Hall); [lia|].
    destruct (IH g1 m1 (out ++ [k]) Hc1 Hb1) as
      (g' & m' & ks & E' & Hc' & Hb' & Hg' & (new & Hp & Hn & Hd) & Hlen & Hks & Hkeep & Hback & Hlast & Hrest);
      [lia|].
    exists g', m', (k :: ks).
    split; [simpl; rewrite E; simpl; rewrite E'; now rewrite <- app_assoc|].
    split; [exact Hc'|]. split; [exact Hb'|].
    split; [cbn [length]; lia|].
    split.
    { exists (new ++ new1). split; [|split].
      - rewrite Hp, Hp1. now rewrite app_assoc.
      - apply Forall_app. split; [eapply Forall_impl; [|exact Hn] | eapply Forall_impl; [|exact Hn1]]; simpl; lia.
      - apply NoDup_app_iff. repeat split; auto. intros x Hx Hx1.
        rewrite Forall_forall in Hn, Hn1. specialize (Hn _ Hx). specialize (Hn1 _ Hx1). lia. }
    split; [simpl; lia|].
    split.
    { intros [|i] t0 c0 k0 Et Ek; simpl in Et, Ek.
      - injection Et as <- <-. injection Ek as <-. eapply Hkeep. exact Hh.
      - eapply Hks; eauto. }
    split.
    { intros t0 k0 c0 Hx. destruct (teq t t0) eqn:Et.
      - assert (Hx1 : holds m1 t0 k c) by (apply Hall; auto).
        destruct (Hkeep _ _ _ Hx1) as [c' Hc1']. 
        assert (k0 = k) as ->; [|eauto].
        (* the key of an existing time is kept *)
        clear - E Hx Et Hc H0. 
        destruct (insert_present m g t c k0 c0 Hc) as (m2 & E2 & _).
        { eapply holds_teq; [|exact Hx]. now rewrite teq_sym. }
        rewrite E in E2. injection E2 as _ _ ->. reflexivity.
      - eapply Hkeep. apply Hall. right. split; [exact Et | exact Hx]. }
    split.
    { intros t0 k0 c0 Hx. apply Hback in Hx. simpl.
      destruct (last_value tcs t0); auto.
      apply Hall in Hx as [(Et & _ & ->)|[Et Hx]]; rewrite Et; auto. }
    split.
    { intros t0 c0. simpl. destruct (last_value tcs t0) eqn:El.
      - intros [= ->]. eapply Hlast; eauto.
      - destruct (teq t t0) eqn:Et; [|discriminate]. intros [= ->].
        exists k. apply Hrest; auto. apply Hall. auto. }
    { intros t0 k0 c0. simpl. destruct (last_value tcs t0) eqn:El; [discriminate|].
      destruct (teq t t0) eqn:Et; [discriminate|]. intros _ Hx.
      apply Hrest; auto. apply Hall. auto. }
Qed.

(** ** addCoefficientAtEnd *)

Lemma last_node_app l n : last_node (l ++ [n]) = Some n.
Proof. unfold last_node. rewrite rev_app_distr. reflexivity. Qed.

Lemma nodes_snoc m : nodes m <> [] -> exists a n, nodes m = a ++ [n] /\ max_time m = n_time n.
Proof.
  intros Hne. destruct (exists_last Hne) as (a & n & E).
  exists a, n. split; auto. unfold max_time. rewrite E, last_node_app. reflexivity.
Qed.

Lemma max_time_bound m n :
  consistent m -> In n (nodes m) -> tle (n_time n) (max_time m) = true.
Proof.
  intros Hc Hi. destruct (nodes_snoc m) as (a & x & E & ->).
  { intros E. rewrite E in Hi. destruct Hi. }
  pose proof (cons_sorted _ Hc) as Hs. rewrite E in Hs, Hi.
  apply sorted_split in Hs as [Ha _]. rewrite in_app_iff in Hi.
  rewrite Forall_forall in Ha.
  destruct Hi as [Hi|[->|[]]]; [apply tlt_le; auto | apply tle_refl].
Qed.

Lemma min_time_bound m n :
  consistent m -> In n (nodes m) -> tle (min_time m) (n_time n) = true.
Proof.
  intros Hc Hi. pose proof (cons_sorted _ Hc) as Hs. unfold min_time.
  destruct (nodes m) as [|x l]; [destruct Hi|].
  inversion Hs as [|? ? _ Hf]; subst. rewrite Forall_forall in Hf.
  destruct Hi as [->|Hi]; [apply tle_refl | apply tlt_le, Hf; auto].
Qed.

Lemma above_max_not_present m t :
  consistent m -> tlt (max_time m) t = true -> ~ present m t.
Proof.
  intros Hc Ht (k & c & n & Hi & E & _).
  pose proof (max_time_bound _ _ Hc Hi) as Hm.
  pose proof (tle_lt_trans _ _ _ Hm Ht) as X.
  apply tlt_not_teq in X. congruence.
Qed.

Lemma add_end_spec m g t c out :
  consistent m -> keys_below g m -> (g + 1 < key_mod)%N -> nodes m <> [] ->
  tlt (max_time m) t = true ->
  exists m', add_coefficient_at_end g m t c out = Ok ((g + 1)%N, m', out ++ [(g + 1)%N]) /\
    consistent m' /\ keys_below (g + 1)%N m' /\
    nodes m' = nodes m ++ [Node (fresh m) t (g + 1)%N c] /\
    max_time m' = t /\
    (forall t' k' c', holds m' t' k' c' <->
       (teq t t' = true /\ k' = (g + 1)%N /\ c' = c) \/ (teq t t' = false /\ holds m t' k' c')).
Proof.
  intros Hc Hb Hg Hne Ht. unfold add_coefficient_at_end. rewrite Ht. simpl.
  destruct (nodes m) as [|n0 l0] eqn:E0; [congruence|]. rewrite <- E0 in *.
  rewrite (next_key_nowrap _ Hg).
  pose proof (above_max_not_present _ _ Hc Ht) as Hp.
  pose proof (not_present_forall _ _ Hp) as Hf.
  destruct (map_insert_absent (Node (fresh m) t (g + 1)%N c) (nodes m) (cons_sorted _ Hc))
    as (a & b & El & Ha & Hbb & Ei); [exact Hf|].
  simpl in Ha, Hbb.
  assert (b = []) as ->.
  { destruct b as [|x b]; auto. exfalso.
    inversion Hbb; subst.
    assert (Hi : In x (nodes m)) by (rewrite El, in_app_iff; simpl; auto).
    pose proof (max_time_bound _ _ Hc Hi) as Hm.
    pose proof (tle_lt_trans _ _ _ Hm Ht) as X.
    rewrite (tlt_asym _ _ X) in *. discriminate. }
  rewrite Ei. simpl. rewrite app_nil_r in El. subst a.
  assert (Hk : ~ known_key m (g + 1)%N) by now apply below_not_known.
  eexists. split; [reflexivity|]. split.
  { eapply consistent_insert; eauto; [now rewrite app_nil_r|].
    apply idx_insert_absent.
    intros Hx. apply Hk. eapply Permutation_in; [apply cons_index_keys; auto | exact Hx]. }
  split.
  { unfold keys_below, get_keys. simpl. rewrite map_app. apply Forall_app. split.
    - eapply Forall_impl; [|exact Hb]. simpl. lia.
    - constructor; [simpl; lia|constructor]. }
  split; [reflexivity|].
  split; [unfold max_time; simpl; now rewrite last_node_app|].
  intros t' k' c'. eapply holds_insert; eauto. now rewrite app_nil_r.
Qed.

(** ** removeCoefficientAtTime *)

Lemma consistent_erase m a n b :
  consistent m -> nodes m = a ++ n :: b ->
  consistent (Mgr (a ++ b) (idx_erase (n_key n) (index m)) (fresh m)).
Proof.
  intros Hc El. pose proof (cons_sorted _ Hc) as Hs.
  assert (Hi : In n (nodes m)) by (rewrite El, in_app_iff; simpl; auto).
  constructor; simpl.
  - apply sorted_map. rewrite El in Hs. apply ssorted_app in Hs as (Ha & Hb & Hab).
    inversion Hb; subst. apply ssorted_app. repeat split; auto.
    eapply Forall_impl; [|exact Hab]. intros x Hx. inversion Hx; auto.
  - pose proof (c_ids _ Hc) as Hn. rewrite El, map_app in Hn. simpl in Hn.
    rewrite map_app. eapply NoDup_remove_1; eauto.
  - pose proof (c_fresh _ Hc) as Hf. rewrite El in Hf. apply Forall_app in Hf as [Ha Hb].
    inversion Hb; subst. apply Forall_app; auto.
  - pose proof (c_keys _ Hc) as Hn. unfold get_keys in *. rewrite El, map_app in Hn. simpl in Hn.
    simpl. rewrite map_app. eapply NoDup_remove_1; eauto.
  - assert (Hin : In (n_key n, n_id n) (index m)).
    { apply idx_find_in. now apply cons_find. }
    destruct (idx_split _ _ _ (cons_index_nodup _ Hc) Hin) as (x & y & Ex & Hx & Hy).
    rewrite Ex, idx_erase_present by exact Hx.
    pose proof (c_index _ Hc) as Hp. rewrite Ex, El, map_app in Hp. simpl in Hp.
    apply Permutation_app_inv in Hp. now rewrite map_app.
Qed.

Lemma holds_erase m a n b idx f :
  consistent m -> nodes m = a ++ n :: b ->
  forall t' k' c', holds (Mgr (a ++ b) idx f) t' k' c' <->
    teq (n_time n) t' = false /\ holds m t' k' c'.
Proof.
  intros Hc El t' k' c'. unfold holds. simpl. rewrite El.
  pose proof (cons_sorted _ Hc) as Hs. rewrite El in Hs. apply sorted_split in Hs as [Ha Hb].
  rewrite Forall_forall in Ha, Hb.
  split.
  - intros (x & Hx & E & Ek & Ec). split.
    + rewrite teq_sym, <- (teq_cong _ _ _ E). rewrite in_app_iff in Hx.
      destruct Hx as [Hx|Hx]; apply teq_false; auto.
    + exists x. rewrite in_app_iff in *. simpl. tauto.
  - intros (E & x & Hx & E' & Ek & Ec). exists x. repeat split; auto.
    rewrite in_app_iff in *. simpl in Hx. destruct Hx as [Hx|[->|Hx]]; auto. congruence.
Qed.

Lemma remove_present m t k c :
  consistent m -> holds m t k c ->
  exists m', remove_coefficient_at_time m t = Ok m' /\ consistent m' /\
    Permutation (get_keys m) (k :: get_keys m') /\
    size m = S (size m') /\
    (forall t' k' c', holds m' t' k' c' <-> teq t t' = false /\ holds m t' k' c').
Proof.
  intros Hc Hh. assert (Hp : present m t) by (exists k, c; exact Hh).
  destruct Hh as (n & Hi & E & <- & <-).
  unfold remove_coefficient_at_time.
  pose proof Hp as Hp'. apply present_has in Hp' as ->; auto.
  rewrite map_find_scan by now apply cons_sorted.
  rewrite (scan_some _ _ _ (cons_sorted _ Hc) Hi E).
  rewrite (cons_find _ _ Hc Hi).
  apply in_split in Hi as (a & b & El).
  assert (Hids : NoDup (map n_id (a ++ n :: b))) by (rewrite <- El; apply c_ids; auto).
  assert (Ee : map_erase (n_id n) (nodes m) = a ++ b)
    by (rewrite El; now apply map_erase_split).
  rewrite Ee.
  eexists. split; [reflexivity|]. split; [now apply consistent_erase|].
  split.
  { unfold get_keys. rewrite El. simpl. rewrite !map_app. simpl.
    symmetry. apply Permutation_middle. }
  split.
  { unfold size. rewrite El. simpl. rewrite !app_length. simpl. lia. }
  intros t' k' c'. rewrite (holds_erase m a n b) by auto.
  now rewrite (teq_cong _ _ t' E).
Qed.

Lemma remove_absent m t :
  consistent m -> ~ present m t -> remove_coefficient_at_time m t = Abort.
Proof.
  intros Hc Hp. unfold remove_coefficient_at_time.
  destruct (has_coefficient_at_time m t) eqn:E; auto.
  apply present_has in E; auto. tauto.
Qed.

(** ** modifyCoefficient *)

Lemma move_spec m n t c :
  consistent m -> In n (nodes m) -> ~ present m t ->
  exists m', modify_coefficient m (At (n_id n)) t c = Ok m' /\ consistent m' /\
    Permutation (get_keys m') (get_keys m) /\
    (forall t' k' c', holds m' t' k' c' <->
       (teq t t' = true /\ k' = n_key n /\ c' = c) \/
       (teq t t' = false /\ teq (n_time n) t' = false /\ holds m t' k' c')).
Proof.
  intros Hc Hi Hp. unfold modify_coefficient. rewrite (cons_deref _ _ Hc Hi). simpl.
  pose proof (not_present_forall _ _ Hp) as Hf.
  destruct (map_insert_absent (Node (fresh m) t (n_key n) c) (nodes m) (cons_sorted _ Hc))
    as (a & b & El & Ha & Hb & Ei); [exact Hf|].
  simpl in Ha, Hb. rewrite Ei. simpl.
  set (new := Node (fresh m) t (n_key n) c).
  (* erasing from the old list first gives the same nodes *)
  assert (Hids : NoDup (map n_id (a ++ b))) by (rewrite <- El; apply c_ids; auto).
  assert (Hnew : ~ In (fresh m) (map n_id (a ++ b))).
  { rewrite <- El. intros Hx. apply in_map_iff in Hx as (x & E & Hx).
    pose proof (c_fresh _ Hc) as Hfr. rewrite Forall_forall in Hfr. specialize (Hfr _ Hx). lia. }
  assert (Hne : n_id n <> fresh m).
  { intros E. apply Hnew. rewrite <- E, <- El. now apply in_map. }
  assert (Ee : map_erase (n_id n) (a ++ new :: b) = map_erase (n_id n) a ++ new :: map_erase (n_id n) b).
  { unfold map_erase. rewrite filter_app. simpl.
    destruct (Nat.eqb_spec (fresh m) (n_id n)); [congruence|]. reflexivity. }
  rewrite Ee.
  assert (Eo : exists a1 b1, nodes m = a1 ++ n :: b1 /\
     map_erase (n_id n) a ++ map_erase (n_id n) b = a1 ++ b1).
  { apply in_split in Hi as (a1 & b1 & E1). exists a1, b1. split; auto.
    unfold map_erase. rewrite <- filter_app. rewrite <- El, E1.
    apply map_erase_split; auto. rewrite <- E1, El. exact Hids. }
  destruct Eo as (a1 & b1 & E1 & E2).
  pose proof (consistent_erase m a1 n b1 Hc E1) as Hc1.
  set (m1 := Mgr (a1 ++ b1) (idx_erase (n_key n) (index m)) (fresh m)) in *.
  assert (Hk1 : ~ known_key m1 (n_key n)).
  { unfold known_key, get_keys. simpl. pose proof (c_keys _ Hc) as Hk. unfold get_keys in Hk.
    rewrite E1, map_app in Hk. simpl in Hk. apply NoDup_remove_2 in Hk. now rewrite map_app. }
  assert (Hf1 : Forall (fun x => teq (n_time x) t = false) (nodes m1)).
  { simpl. rewrite E1 in Hf. apply Forall_app in Hf as [Hfa Hfb]. inversion Hfb; subst.
    apply Forall_app; auto. }
  assert (Hmem : forall x (l : list node), In x (map_erase (n_id n) l) -> In x l).
  { intros x l Hx. apply filter_In in Hx. tauto. }
  eexists. split; [reflexivity|]. split; [|split].
  - apply (consistent_insert m1 _ _ (n_key n) t c _ Hc1 (eq_sym E2)); [| | exact Hk1 |].
    + rewrite Forall_forall in *. intros x Hx. apply Ha. eauto.
    + rewrite Forall_forall in *. intros x Hx. apply Hb. eauto.
    + simpl.
      assert (Hin : In (n_key n, n_id n) (index m)).
      { apply idx_find_in. now apply cons_find. }
      destruct (idx_split _ _ _ (cons_index_nodup _ Hc) Hin) as (x & y & Ex & Hx & Hy).
      rewrite Ex, idx_erase_present, idx_set_present by exact Hx.
      symmetry. apply Permutation_middle.
  - unfold get_keys. simpl. rewrite map_app. simpl.
    etransitivity; [symmetry; apply Permutation_middle|].
    rewrite <- map_app, E2, E1, !map_app. simpl. apply Permutation_middle.
  - intros t' k' c'. 
    change (Mgr (map_erase (n_id n) a ++ new :: map_erase (n_id n) b)
             (idx_set (n_key n) (fresh m) (index m)) (S (fresh m)))
      with (Mgr (map_erase (n_id n) a ++ Node (fresh m1) t (n_key n) c :: map_erase (n_id n) b)
             (idx_set (n_key n) (fresh m) (index m)) (S (fresh m1))).
    rewrite (holds_insert m1) by (simpl; auto).
    unfold m1. rewrite (holds_erase m a1 n b1) by auto. tauto.
Qed.

(** Moving to the coefficient's own time loses it and leaves its key dangling. *)
Lemma move_own_time m n t c :
  consistent m -> In n (nodes m) -> teq (n_time n) t = true ->
  exists m', modify_coefficient m (At (n_id n)) t c = Ok m' /\
    size m = S (size m') /\
    (forall t' k' c', holds m' t' k' c' <-> teq t t' = false /\ holds m t' k' c') /\
    get_coefficient_by_key m' (n_key n) = UB /\
    get_coefficient_time_by_key m' (n_key n) = UB /\
    (forall c', update_coefficient_by_key m' (n_key n) c' = UB).
Proof.
  intros Hc Hi E. unfold modify_coefficient. rewrite (cons_deref _ _ Hc Hi). simpl.
  destruct (map_insert_spec (Node (fresh m) t (n_key n) c) (nodes m) (cons_sorted _ Hc))
    as [(x & Hx & Ex & Ei) | (a & b & El & Ha & Hb & Ei)].
  2:{ exfalso. rewrite El in Hi. apply in_app_iff in Hi. simpl in Ha, Hb.
      rewrite Forall_forall in Ha, Hb.
      apply teq_spec in E as [E1 E2].
      destruct Hi as [Hi|Hi]; [specialize (Ha _ Hi) | specialize (Hb _ Hi)]; congruence. }
  simpl in Ex. rewrite Ei.
  assert (x = n) as -> by (eapply sorted_unique; eauto using cons_sorted).
  pose proof (cons_find _ _ Hc Hi) as Hfind.
  pose proof (idx_find_in _ _ _ Hfind) as Hin.
  destruct (idx_split _ _ _ (cons_index_nodup _ Hc) Hin) as (x & y & Exy & Hxx & Hy).
  assert (Eset : idx_set (n_key n) (n_id n) (index m) = index m).
  { rewrite Exy. now rewrite idx_set_present. }
  rewrite Eset.
  pose proof Hi as Hi'. apply in_split in Hi' as (a & b & El).
  assert (Hids : NoDup (map n_id (a ++ n :: b))) by (rewrite <- El; apply c_ids; auto).
  assert (Ee : map_erase (n_id n) (nodes m) = a ++ b)
    by (rewrite El; now apply map_erase_split).
  rewrite Ee.
  assert (Hnid : node_by_id (a ++ b) (n_id n) = None).
  { apply node_by_id_none. rewrite map_app in *. simpl in Hids. now apply NoDup_remove_2 in Hids. }
  eexists. split; [reflexivity|]. split; [|split; [|split; [|split]]].
  - unfold size. rewrite El. simpl. rewrite !app_length. simpl. lia.
  - intros t' k' c'. rewrite (holds_erase m a n b) by auto. now rewrite (teq_cong _ _ t' E).
  - unfold get_coefficient_by_key. simpl. rewrite Hfind. simpl. now rewrite Hnid.
  - unfold get_coefficient_time_by_key. simpl. rewrite Hfind. simpl. now rewrite Hnid.
  - intros c'. unfold update_coefficient_by_key. simpl. rewrite Hfind. simpl. now rewrite Hnid.
Qed.

(** Moving to the time of another coefficient drops the new value. *)
Lemma move_taken_time m n n2 t c ceq :
  consistent m -> In n (nodes m) -> In n2 (nodes m) -> n <> n2 ->
  teq (n_time n2) t = true ->
  exists m', modify_coefficient m (At (n_id n)) t c = Ok m' /\
    size m = S (size m') /\
    (forall t' k' c', holds m' t' k' c' <-> teq (n_time n) t' = false /\ holds m t' k' c') /\
    get_coefficient_by_key m' (n_key n) = Ok (n_coef n2) /\
    get_coefficient_by_key m' (n_key n2) = Ok (n_coef n2) /\
    n_key n <> n_key n2 /\
    check_internal_consistency ceq m' = Abort.
Proof.
  intros Hc Hi Hi2 Hne E. unfold modify_coefficient. rewrite (cons_deref _ _ Hc Hi). simpl.
  destruct (map_insert_spec (Node (fresh m) t (n_key n) c) (nodes m) (cons_sorted _ Hc))
    as [(x & Hx & Ex & Ei) | (a & b & El & Ha & Hb & Ei)].
  2:{ exfalso. rewrite El in Hi2. apply in_app_iff in Hi2. simpl in Ha, Hb.
      rewrite Forall_forall in Ha, Hb.
      apply teq_spec in E as [E1 E2].
      destruct Hi2 as [Hi2|Hi2]; [specialize (Ha _ Hi2) | specialize (Hb _ Hi2)]; congruence. }
  simpl in Ex. rewrite Ei.
  assert (x = n2) as -> by (eapply sorted_unique; eauto using cons_sorted).
  pose proof (cons_find _ _ Hc Hi) as Hfind.
  pose proof (idx_find_in _ _ _ Hfind) as Hin.
  destruct (idx_split _ _ _ (cons_index_nodup _ Hc) Hin) as (x & y & Exy & Hxx & Hy).
  assert (Hkne : n_key n <> n_key n2).
  { intros Ek. apply Hne. eapply key_unique; eauto. }
  pose proof Hi as Hi'. apply in_split in Hi' as (a & b & El).
  assert (Hids : NoDup (map n_id (a ++ n :: b))) by (rewrite <- El; apply c_ids; auto).
  assert (Ee : map_erase (n_id n) (nodes m) = a ++ b)
    by (rewrite El; now apply map_erase_split).
  rewrite Ee.
  assert (Hi2' : In n2 (a ++ b)).
  { rewrite El in Hi2. rewrite in_app_iff in *. simpl in Hi2.
    destruct Hi2 as [?|[?|?]]; auto. congruence. }
  assert (Hids' : NoDup (map n_id (a ++ b))).
  { rewrite map_app in *. simpl in Hids. now apply NoDup_remove_1 in Hids. }
  pose proof (node_by_id_in _ _ Hids' Hi2') as Hn2.
  eexists. split; [reflexivity|].
  split; [|split; [|split; [|split; [|split]]]].
  - unfold size. rewrite El. simpl. rewrite !app_length. simpl. lia.
  - intros t' k' c'. now rewrite (holds_erase m a n b) by auto.
  - unfold get_coefficient_by_key. simpl. rewrite Exy, idx_set_present by auto.
    rewrite (idx_in_find (n_key n) (n_id n2)).
    + simpl. now rewrite Hn2.
    + pose proof (cons_index_nodup _ Hc) as Hnd. rewrite Exy in Hnd.
      rewrite map_app in *. exact Hnd.
    + rewrite in_app_iff. simpl. auto.
  - unfold get_coefficient_by_key. simpl. rewrite Exy, idx_set_present by auto.
    rewrite (idx_in_find (n_key n2) (n_id n2)).
    + simpl. now rewrite Hn2.
    + pose proof (cons_index_nodup _ Hc) as Hnd. rewrite Exy in Hnd.
      rewrite map_app in *. exact Hnd.
    + pose proof (idx_find_in _ _ _ (cons_find _ _ Hc Hi2)) as Hin2. rewrite Exy in Hin2.
      rewrite in_app_iff in *. simpl in *.
      destruct Hin2 as [?|[[= ? ?]|?]]; auto. congruence.
  - exact Hkne.
  - unfold check_internal_consistency. simpl.
    assert (Hl : length (idx_set (n_key n) (n_id n2) (index m)) = S (length (a ++ b))).
    { pose proof (Permutation_length (c_index _ Hc)) as Hpl. rewrite map_length, El in Hpl.
      rewrite Exy in *. rewrite idx_set_present by auto.
      rewrite !app_length in *. simpl in *. lia. }
    rewrite Hl. destruct (Nat.eqb_spec (S (length (a ++ b))) (length (a ++ b))); [lia|reflexivity].
Qed.

End Proofs.
