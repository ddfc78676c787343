(** * Lemmas about the coefficient manager model, part 2:
      batch modification, range queries, invariants over histories, refinement *)

From Coq Require Import List Bool Arith NArith Lia Permutation Sorting.Sorted.
From Verif Require Import Base TimeOrder KeyGen Manager ManagerSpec ManagerProofs.
Import ListNotations.

Section Proofs.
Context {T C : Type} `{TimeLaws T}.
Local Notation node := (node T C).
Local Notation mgr := (mgr T C).
Implicit Types (m : mgr) (n : node) (l : list node) (t : T) (c : C).

(** ** Range queries *)

Lemma bracket_from_some prev l t n0 n1 :
  bracket_from prev l t = Some (n0, n1) ->
  exists a b, prev :: l = a ++ n0 :: n1 :: b /\ tlt t (n_time n1) = true /\
    (n0 = prev \/ tlt t (n_time n0) = false).
Proof.
  revert prev. induction l as [|n l IH]; intros prev; simpl; [discriminate|].
  destruct (tlt t (n_time n)) eqn:E.
  - intros [= <- <-]. exists [], l. auto.
  - intros Hx. destruct (IH n Hx) as (a & b & El & Ht & Hn).
    exists (prev :: a), b. rewrite El. repeat split; auto.
    right. destruct Hn as [->|Hn]; auto.
Qed.

Lemma bracket_from_none prev l t :
  StronglySorted nlt (prev :: l) ->
  bracket_from prev l t = None ->
  match last_node l with Some n => tlt t (n_time n) = false | None => True end.
Proof.
  revert prev. induction l as [|n l IH]; intros prev Hs; simpl; auto.
  destruct (tlt t (n_time n)) eqn:E; [discriminate|]. intros Hx.
  inversion Hs as [|? ? Hs' _]; subst.
  specialize (IH n Hs' Hx). destruct l as [|n' l] using rev_ind; [exact E|].
  rewrite last_node_app in IH.
  change (n :: l ++ [n']) with ((n :: l) ++ [n']). now rewrite last_node_app.
Qed.

Lemma last_two_some l p n : last_two l = Some (p, n) -> exists a, l = a ++ [p; n].
Proof.
  unfold last_two. destruct (rev l) as [|x [|y r]] eqn:E; try discriminate.
  intros [= <- <-]. exists (rev r).
  rewrite <- (rev_involutive l), E. simpl. now rewrite <- app_assoc.
Qed.

Lemma last_two_app l p n : last_two (l ++ [p; n]) = Some (p, n).
Proof. unfold last_two. now rewrite rev_app_distr. Qed.

Lemma max_time_app m a n : nodes m = a ++ [n] -> max_time m = n_time n.
Proof. intros E. unfold max_time. now rewrite E, last_node_app. Qed.

Lemma get_at_some m t n0 n1 :
  consistent m -> get_coefficients_at m t = Some (n0, n1) ->
  exists a b, nodes m = a ++ n0 :: n1 :: b /\ tle (n_time n0) t = true /\
    (tlt t (n_time n1) = true \/ (b = [] /\ teq t (n_time n1) = true)).
Proof.
  intros Hc. unfold get_coefficients_at.
  destruct (empty m) eqn:Ee; [discriminate|].
  pose proof (cons_sorted _ Hc) as Hs.
  destruct (teq t (max_time m)) eqn:Et.
  - intros Hl. apply last_two_some in Hl as (a & El).
    exists a, []. split; [exact El|].
    assert (Em : max_time m = n_time n1).
    { apply (max_time_app m (a ++ [n0])). rewrite El, <- app_assoc. reflexivity. }
    rewrite Em in Et. split; [|auto].
    rewrite El in Hs. apply sorted_split in Hs as [_ Hb]. inversion Hb; subst.
    rewrite (tle_teq_r _ _ (n_time n0) Et). now apply tlt_le.
  - unfold bracket_upper. destruct (nodes m) as [|n l] eqn:El; [discriminate|].
    destruct (tlt t (n_time n)) eqn:En; [discriminate|].
    intros Hb. destruct (bracket_from_some _ _ _ _ _ Hb) as (a & b & E & Ht & Hn).
    exists a, b. rewrite E. repeat split; auto.
    rewrite ?tle_def. rewrite negb_true_iff. destruct Hn as [->|Hn]; auto.
Qed.

Lemma get_at_domain m t :
  consistent m ->
  (exists r, get_coefficients_at m t = Some r) <->
  2 <= size m /\ tle (min_time m) t = true /\ tle t (max_time m) = true.
Proof.
  intros Hc. split.
  - intros [[n0 n1] Hx]. destruct (get_at_some _ _ _ _ Hc Hx) as (a & b & El & H0t & H1t).
    assert (Hi0 : In n0 (nodes m)) by (rewrite El, in_app_iff; simpl; auto).
    assert (Hi1 : In n1 (nodes m)) by (rewrite El, in_app_iff; simpl; auto).
    split; [|split].
    + unfold size. rewrite El, app_length. simpl. lia.
    + eapply tle_trans; [apply (min_time_bound m n0); auto | exact H0t].
    + eapply tle_trans; [|apply (max_time_bound m n1); auto].
      destruct H1t as [Ht|[_ Ht]]; [now apply tlt_le | now apply teq_tle].
  - intros (Hsz & Hmin & Hmax). unfold get_coefficients_at.
    pose proof (cons_sorted _ Hc) as Hs.
    unfold size in Hsz. unfold empty, min_time in *.
    destruct (nodes m) as [|n [|n' l]] eqn:El; simpl in Hsz; try lia.
    destruct (teq t (max_time m)) eqn:Et.
    + unfold last_two. destruct (rev (n :: n' :: l)) as [|x [|y r]] eqn:Er; [| |eauto].
      * apply (f_equal (@length _)) in Er. rewrite rev_length in Er. discriminate.
      * apply (f_equal (@length _)) in Er. rewrite rev_length in Er. discriminate.
    + unfold bracket_upper. rewrite ?tle_def in Hmin. rewrite negb_true_iff in Hmin. rewrite Hmin.
      destruct (bracket_from n (n' :: l) t) as [r|] eqn:Eb; [eauto|].
      exfalso. pose proof (bracket_from_none _ _ _ Hs Eb) as Hl.
      destruct (nodes_snoc m) as (a & x & Ea & Em); [rewrite El; discriminate|].
      assert (Hlast : last_node (n' :: l) = Some x).
      { rewrite El in Ea. destruct a as [|y a].
        - simpl in Ea. discriminate.
        - injection Ea as -> Ea. rewrite Ea. apply last_node_app. }
      rewrite Hlast in Hl. rewrite Em in *.
      apply tle_cases in Hmax as [Hm|Hm]; congruence.
Qed.

(** getTimesInWindow: with two or more coefficients the result is the list of
    times from [beg] on, without the first coefficient time. *)
Lemma window_loop_spec beg (cur : node) before acc :
  before <> [] ->
  StronglySorted nlt (rev before ++ [cur]) ->
  window_loop beg cur before acc =
  Ok (acc ++ filter (fun t => tle beg t) (map n_time (cur :: removelast before))).
Proof.
  revert cur acc. induction before as [|p before IH]; intros cur acc Hne Hs; [congruence|].
  cbn [window_loop].
  set (acc' := if tle beg (n_time cur) then acc ++ [n_time cur] else acc).
  assert (Eacc : forall r, acc' ++ r = acc ++ (if tle beg (n_time cur) then n_time cur :: r else r)).
  { intros r. unfold acc'. destruct (tle beg (n_time cur)); auto. now rewrite <- app_assoc. }
  destruct before as [|q before].
  - rewrite andb_false_r. simpl. f_equal.
    rewrite <- (app_nil_r acc'), Eacc. now destruct (tle beg (n_time cur)).
  - rewrite andb_true_r.
    assert (Hs' : StronglySorted nlt (rev (q :: before) ++ [p])).
    { simpl in Hs. simpl. apply ssorted_app in Hs. tauto. }
    destruct (tle beg (n_time p)) eqn:Ep.
    + rewrite IH; [|discriminate|exact Hs'].
      rewrite Eacc. reflexivity.
    + f_equal. rewrite <- (app_nil_r acc'), Eacc. f_equal.
      change (removelast (p :: q :: before)) with (p :: removelast (q :: before)).
      cbn [map filter]. rewrite Ep.
      assert (Hnil : filter (fun t => tle beg t) (map n_time (removelast (q :: before))) = []).
      { assert (Hall : Forall (fun x => tle beg (n_time x) = false) (q :: before)).
        { apply ssorted_app in Hs' as (_ & _ & Hab).
          apply Forall_rev in Hab. rewrite rev_involutive in Hab.
          eapply Forall_impl; [|exact Hab]. intros x Hx. inversion Hx as [|? ? Hn _]; subst.
          rewrite ?tle_def in *. rewrite negb_false_iff in *. unfold nlt in Hn.
          eapply tlt_trans; eauto. }
        assert (Hsub : forall l0 : list node, Forall (fun x => tle beg (n_time x) = false) l0 ->
           filter (fun t => tle beg t) (map n_time (removelast l0)) = []).
        { induction l0 as [|a l0 IH0]; intros Hf; [reflexivity|].
          inversion Hf; subst. destruct l0 as [|b l0]; [reflexivity|].
          change (removelast (a :: b :: l0)) with (a :: removelast (b :: l0)).
          cbn [map filter]. rewrite H3. apply IH0. exact H4. }
        now apply Hsub. }
      rewrite Hnil. now destruct (tle beg (n_time cur)).
Qed.

Lemma filter_rev {A} (f : A -> bool) (l : list A) : filter f (rev l) = rev (filter f l).
Proof.
  induction l as [|a l IH]; simpl; auto.
  rewrite filter_app, IH. simpl. destruct (f a); simpl; auto. now rewrite app_nil_r.
Qed.

Lemma removelast_rev {A} (l : list A) : removelast (rev l) = rev (tl l).
Proof. destruct l as [|a l]; [reflexivity|]. simpl. apply removelast_last. Qed.

Lemma window_spec m beg fin :
  consistent m -> 2 <= size m -> teq fin (max_time m) = true -> tle (min_time m) beg = true ->
  get_times_in_window m beg fin = Ok (filter (fun t => tle beg t) (tl (get_times m))).
Proof.
  intros Hc Hsz Hf Hm. unfold get_times_in_window. rewrite Hf, Hm. simpl.
  pose proof (cons_sorted _ Hc) as Hs. unfold size in Hsz.
  destruct (rev (nodes m)) as [|cur before] eqn:Er.
  { apply (f_equal (@length _)) in Er. rewrite rev_length in Er. simpl in Er. lia. }
  assert (El : nodes m = rev before ++ [cur]).
  { rewrite <- (rev_involutive (nodes m)), Er. reflexivity. }
  assert (Hb : before <> []).
  { intros ->. rewrite El in Hsz. simpl in Hsz. lia. }
  rewrite window_loop_spec; [|exact Hb|now rewrite <- El].
  cbn [bind app]. f_equal. rewrite <- filter_rev, <- map_rev. f_equal.
  unfold get_times.
  rewrite El. destruct (rev before) as [|x r] eqn:Eb.
  { exfalso. apply Hb. rewrite <- (rev_involutive before), Eb. reflexivity. }
  assert (before = rev (x :: r)) as -> by (rewrite <- Eb; symmetry; apply rev_involutive).
  rewrite removelast_rev. simpl. now rewrite rev_involutive.
Qed.

Lemma filter_tl_gt m beg :
  tlt (min_time m) beg = true -> 
  filter (fun t => tle beg t) (tl (get_times m)) = filter (fun t => tle beg t) (get_times m).
Proof.
  unfold min_time, get_times. destruct (nodes m) as [|n l]; [reflexivity|].
  simpl. intros Ht. rewrite ?tle_def. now rewrite Ht.
Qed.

Lemma window_abort m beg fin :
  teq fin (max_time m) = false \/ tlt beg (min_time m) = true ->
  get_times_in_window m beg fin = Abort.
Proof.
  unfold get_times_in_window. intros [E|E].
  - now rewrite E.
  - destruct (teq fin (max_time m)); simpl; auto. rewrite ?tle_def. now rewrite E.
Qed.

Lemma window_ub m beg fin :
  size m <= 1 -> teq fin (max_time m) = true -> tle (min_time m) beg = true ->
  get_times_in_window m beg fin = UB.
Proof.
  unfold size, get_times_in_window. intros Hsz -> ->. simpl.
  destruct (nodes m) as [|n [|n' l]]; simpl in *; auto. lia.
Qed.

(** ** Batch modification *)

Lemma batch_seek_some (before after : list node) t b suf :
  batch_seek before after t = Ok (b, suf) ->
  rev before ++ after = rev b ++ suf /\
  exists n r, suf = n :: r /\ teq (n_time n) t = true.
Proof.
  revert after. induction before as [|x before IH]; intros after; simpl; [discriminate|].
  destruct (teq (n_time x) t) eqn:E.
  - intros [= <- <-]. rewrite <- app_assoc. simpl. eauto.
  - intros Hx. apply IH in Hx as [El Hx]. split; auto. rewrite <- El, <- app_assoc. reflexivity.
Qed.

Lemma batch_seek_none (before after : list node) t :
  Forall (fun n => teq (n_time n) t = false) before -> batch_seek before after t = UB.
Proof.
  revert after. induction before as [|x before IH]; intros after Hf; simpl; auto.
  inversion Hf; subst. rewrite H3. auto.
Qed.

Lemma batch_seek_at (b : list node) n after0 q t :
  Forall (fun x => teq (n_time x) t = false) q -> teq (n_time n) t = true ->
  batch_seek (rev q ++ n :: b) after0 t = Ok (b, n :: q ++ after0).
Proof.
  revert after0. induction q as [|x q IH] using rev_ind; intros after0 Hq Hn; simpl.
  - now rewrite Hn.
  - apply Forall_app in Hq as [Hq Hx]. inversion Hx; subst.
    rewrite rev_app_distr. simpl. rewrite H3. rewrite IH by auto.
    now rewrite <- app_assoc.
Qed.

(** Overwriting the coefficients of a list of nodes. *)
Fixpoint zip_coef l (cs : list C) : list node :=
  match l, cs with
  | n :: r, c :: cs' => Node (n_id n) (n_time n) (n_key n) c :: zip_coef r cs'
  | _, _ => l
  end.

Lemma batch_write_ok l q ts cs :
  Forall2 (fun n t => teq (n_time n) t = true) l ts -> length ts = length cs ->
  batch_write (l ++ q) ts cs = Ok (zip_coef l cs ++ q).
Proof.
  intros Hf. revert cs. induction Hf as [|n t l ts E Hf IH]; intros cs Hl; simpl.
  - destruct cs; [reflexivity|discriminate].
  - destruct cs as [|c cs]; [discriminate|]. rewrite E. simpl in Hl.
    rewrite IH by lia. reflexivity.
Qed.

Lemma batch_write_past l ts ts' cs :
  Forall2 (fun n t => teq (n_time n) t = true) l ts -> ts' <> [] ->
  length (ts ++ ts') = length cs ->
  batch_write l (ts ++ ts') cs = UB.
Proof.
  intros Hf Hne. revert cs. induction Hf as [|n t l ts E Hf IH]; intros cs Hl; simpl in *.
  - destruct ts' as [|t ts']; [congruence|]. destruct cs; [discriminate|reflexivity].
  - destruct cs as [|c cs]; [discriminate|]. rewrite E. rewrite IH by (simpl in Hl; lia). reflexivity.
Qed.

Lemma batch_write_mismatch l n q ts t ts' cs :
  Forall2 (fun n t => teq (n_time n) t = true) l ts -> teq (n_time n) t = false ->
  length (ts ++ t :: ts') = length cs ->
  batch_write (l ++ n :: q) (ts ++ t :: ts') cs = Abort.
Proof.
  intros Hf Hne. revert cs. induction Hf as [|x t0 l ts E Hf IH]; intros cs Hl; simpl in *.
  - destruct cs; [discriminate|]. now rewrite Hne.
  - destruct cs as [|c cs]; [discriminate|]. rewrite E. rewrite IH by (simpl in Hl; lia). reflexivity.
Qed.

Lemma batch_write_cases l ts cs :
  length ts = length cs -> length ts <= length l ->
  batch_write l ts cs = Abort \/ exists a b, l = a ++ b /\
    Forall2 (fun n t => teq (n_time n) t = true) a ts /\
    batch_write l ts cs = Ok (zip_coef a cs ++ b).
Proof.
  revert l cs. induction ts as [|t ts IH]; intros l cs Hl Hle; simpl in *.
  - right. exists [], l. destruct cs; auto.
  - destruct cs as [|c cs]; [discriminate|]. destruct l as [|n l]; simpl in *; [lia|].
    destruct (teq (n_time n) t) eqn:E; [|auto].
    destruct (IH l cs) as [->|(a & b & -> & Hf & ->)]; [lia|lia|auto|].
    right. exists (n :: a), b. repeat split; auto.
Qed.

Lemma zip_coef_times l cs : map n_time (zip_coef l cs) = map n_time l.
Proof. revert cs. induction l as [|n l IH]; intros [|c cs]; simpl; auto. now rewrite IH. Qed.
Lemma zip_coef_keys l cs : map n_key (zip_coef l cs) = map n_key l.
Proof. revert cs. induction l as [|n l IH]; intros [|c cs]; simpl; auto. now rewrite IH. Qed.
Lemma zip_coef_ids l cs : map n_id (zip_coef l cs) = map n_id l.
Proof. revert cs. induction l as [|n l IH]; intros [|c cs]; simpl; auto. now rewrite IH. Qed.
Lemma zip_coef_pairs l cs :
  map (fun n => (n_key n, n_id n)) (zip_coef l cs) = map (fun n => (n_key n, n_id n)) l.
Proof. revert cs. induction l as [|n l IH]; intros [|c cs]; simpl; auto. now rewrite IH. Qed.
Lemma zip_coef_length l cs : length (zip_coef l cs) = length l.
Proof. revert cs. induction l as [|n l IH]; intros [|c cs]; simpl; auto. Qed.
Lemma zip_coef_id_forall (P : nid -> Prop) l cs :
  Forall (fun n => P (n_id n)) l -> Forall (fun n => P (n_id n)) (zip_coef l cs).
Proof.
  revert cs. induction l as [|n l IH]; intros [|c cs] Hf; simpl; auto.
  inversion Hf; subst. constructor; auto.
Qed.

Lemma consistent_zip m a b q cs :
  consistent m -> nodes m = a ++ b ++ q ->
  consistent (Mgr (a ++ zip_coef b cs ++ q) (index m) (fresh m)).
Proof.
  intros [Hs Hi Hf Hk Hp] E. unfold get_times, get_keys in *. rewrite E in *.
  constructor; unfold get_times, get_keys; simpl; rewrite ?map_app in *;
    rewrite ?zip_coef_times, ?zip_coef_keys, ?zip_coef_ids, ?zip_coef_pairs; auto.
  rewrite !Forall_app in *. destruct Hf as (Ha & Hb & Hq). repeat split; auto.
  now apply (zip_coef_id_forall (fun i => i < fresh m)).
Qed.

(** What the overwritten nodes hold. *)
Lemma in_zip_coef l cs n' :
  length l = length cs ->
  In n' (zip_coef l cs) <->
  exists i n c, nth_error l i = Some n /\ nth_error cs i = Some c /\
    n' = Node (n_id n) (n_time n) (n_key n) c.
Proof.
  revert cs. induction l as [|n l IH]; intros [|c cs] Hl; simpl in *; try discriminate.
  - split; [tauto|]. intros (i & n & c & E & _). destruct i; discriminate.
  - rewrite IH by lia. split.
    + intros [<-|(i & x & d & E1 & E2 & ->)].
      * exists 0, n, c. auto.
      * exists (S i), x, d. auto.
    + intros ([|i] & x & d & E1 & E2 & ->); simpl in *.
      * injection E1 as ->. injection E2 as ->. auto.
      * right. exists i, x, d. auto.
Qed.

Lemma last_value_none ts (cs : list C) t :
  Forall (fun t' => teq t' t = false) ts -> last_value (combine ts cs) t = None.
Proof.
  revert cs. induction ts as [|t' ts IH]; intros [|c cs] Hf; simpl; auto.
  inversion Hf; subst. rewrite IH by auto. now rewrite H3.
Qed.

Lemma last_value_run l ts cs i n c t :
  StronglySorted nlt l ->
  Forall2 (fun n t => teq (n_time n) t = true) l ts ->
  nth_error l i = Some n -> nth_error cs i = Some c -> teq (n_time n) t = true ->
  length ts = length cs ->
  last_value (combine ts cs) t = Some c.
Proof.
  intros Hs Hf. revert i cs. induction Hf as [|x t0 l ts E Hf IH]; intros i cs En Ec Et Hl.
  - destruct i; discriminate.
  - destruct cs as [|d cs]; [discriminate|]. inversion Hs as [|? ? Hs' Hx]; subst. simpl.
    destruct i as [|i]; simpl in *.
    + injection En as ->. injection Ec as ->.
      rewrite last_value_none.
      * now rewrite <- (teq_cong _ _ t E), Et.
      * assert (Hall : Forall (fun y => teq (n_time y) t = false) l).
        { eapply Forall_impl; [|exact Hx]. intros y Hy. unfold nlt in Hy.
          apply teq_false. right. now rewrite <- (tlt_teq_l _ _ (n_time y) Et). }
        clear - Hf Hall H H0. induction Hf as [|y t1 l ts E Hf IH]; auto.
        inversion Hall; subst. constructor; auto. now rewrite <- (teq_cong _ _ t E).
    + rewrite (IH Hs' i cs En Ec Et ltac:(lia)). reflexivity.
Qed.

Lemma batch_ok m p l q ts cs :
  consistent m -> nodes m = p ++ l ++ q -> ts <> [] -> length ts = length cs ->
  Forall2 (fun n t => teq (n_time n) t = true) l ts ->
  modify_in_batch m ts cs = Ok (Mgr (p ++ zip_coef l cs ++ q) (index m) (fresh m)).
Proof.
  intros Hc E Hne Hl Hf. unfold modify_in_batch. rewrite Hl, Nat.eqb_refl. simpl.
  destruct Hf as [|n t0 l ts En Hf]; [congruence|].
  pose proof (cons_sorted _ Hc) as Hs. rewrite E in Hs.
  assert (Hq : Forall (fun x => teq (n_time x) t0 = false) (l ++ q)).
  { change ((n :: l) ++ q) with (n :: (l ++ q)) in Hs.
    apply sorted_split in Hs as [_ Hb]. eapply Forall_impl; [|exact Hb].
    intros x Hx. apply teq_false. right. now rewrite <- (tlt_teq_l _ _ (n_time x) En). }
  assert (Er : rev (nodes m) = rev (l ++ q) ++ n :: rev p).
  { rewrite E. change ((n :: l) ++ q) with ([n] ++ (l ++ q)).
    rewrite app_assoc, rev_app_distr, (rev_app_distr p [n]). reflexivity. }
  rewrite Er, (batch_seek_at _ _ [] _ _ Hq En). simpl. rewrite app_nil_r.
  destruct cs as [|c cs]; [discriminate|]. rewrite En.
  rewrite batch_write_ok by (simpl in Hl; auto with arith).
  simpl. rewrite rev_involutive. reflexivity.
Qed.

Lemma batch_holds m p l q ts cs :
  consistent m -> nodes m = p ++ l ++ q -> length ts = length cs ->
  Forall2 (fun n t => teq (n_time n) t = true) l ts ->
  forall t k c, holds (Mgr (p ++ zip_coef l cs ++ q) (index m) (fresh m)) t k c <->
    match last_value (combine ts cs) t with
    | Some c0 => c = c0 /\ exists c1, holds m t k c1
    | None => holds m t k c
    end.
Proof.
  intros Hc E Hl Hf t k c.
  pose proof (cons_sorted _ Hc) as Hs. rewrite E in Hs.
  apply ssorted_app in Hs as (Hsp & Hs1 & Hpl). apply ssorted_app in Hs1 as (Hsl & Hsq & Hlq).
  assert (Hlen : length l = length ts) by (clear - Hf; induction Hf; simpl; auto).
  assert (Hzip : forall i n d, nth_error l i = Some n -> nth_error cs i = Some d ->
            teq (n_time n) t = true -> last_value (combine ts cs) t = Some d).
  { intros i n d En Ed Et. exact (last_value_run l ts cs i n d t Hsl Hf En Ed Et Hl). }
  assert (Hout : forall n, In n (p ++ q) -> teq (n_time n) t = true ->
            last_value (combine ts cs) t = None).
  { intros n Hi Et. apply last_value_none.
    assert (Hall : Forall (fun y => teq (n_time y) t = false) l).
    { apply Forall_forall. intros y Hy. rewrite in_app_iff in Hi. destruct Hi as [Hi|Hi].
      - rewrite Forall_forall in Hpl. specialize (Hpl _ Hi). rewrite Forall_app in Hpl.
        destruct Hpl as [Hpl _]. rewrite Forall_forall in Hpl. specialize (Hpl _ Hy).
        unfold nlt in Hpl. apply teq_false. right. now rewrite <- (tlt_teq_l _ _ (n_time y) Et).
      - rewrite Forall_forall in Hlq. specialize (Hlq _ Hy). rewrite Forall_forall in Hlq.
        specialize (Hlq _ Hi). unfold nlt in Hlq. apply teq_false. left.
        now rewrite <- (tlt_teq_r _ _ (n_time y) Et). }
    clear - Hf Hall H H0. induction Hf as [|y t1 l ts E Hf IH]; auto.
    inversion Hall; subst. constructor; auto. now rewrite <- (teq_cong _ _ t E). }
  unfold holds. simpl. rewrite E. split.
  - intros (n' & Hi & Et & Ek & Ec). rewrite !in_app_iff in Hi. destruct Hi as [Hi|[Hi|Hi]].
    + rewrite (Hout n'); [|rewrite in_app_iff; auto | exact Et].
      exists n'. rewrite !in_app_iff. auto.
    + apply in_zip_coef in Hi as (i & n & d & En & Ed & ->); [|lia]. simpl in *.
      rewrite (Hzip i n d En Ed Et). split; [auto|]. exists (n_coef n), n.
      rewrite !in_app_iff. apply nth_error_In in En. auto.
    + rewrite (Hout n'); [|rewrite in_app_iff; auto | exact Et].
      exists n'. rewrite !in_app_iff. auto.
  - destruct (last_value (combine ts cs) t) as [c0|] eqn:Elv.
    + intros (-> & c1 & n & Hi & Et & Ek & Ec).
      rewrite !in_app_iff in Hi.
      assert (Hil : In n l).
      { destruct Hi as [Hi|[Hi|Hi]]; auto; exfalso;
        (assert (X : In n (p ++ q)) by (apply in_app_iff; auto)); discriminate (Hout n X Et). }
      apply In_nth_error in Hil as (i & En).
      assert (Hd : exists d, nth_error cs i = Some d).
      { destruct (nth_error cs i) eqn:Ed; eauto. exfalso.
        apply nth_error_None in Ed. assert (i < length l) by (apply nth_error_Some; congruence). lia. }
      destruct Hd as (d & Ed). pose proof (Hzip i n d En Ed Et) as X. injection X as ->.
      exists (Node (n_id n) (n_time n) (n_key n) d). simpl. repeat split; auto.
      rewrite !in_app_iff. right. left. apply in_zip_coef; [lia|]. eauto 6.
    + intros (n & Hi & Et & Ek & Ec). exists n. repeat split; auto.
      rewrite !in_app_iff in *. destruct Hi as [Hi|[Hi|Hi]]; auto. exfalso.
      apply In_nth_error in Hi as (i & En).
      assert (Hd : exists d, nth_error cs i = Some d).
      { destruct (nth_error cs i) eqn:Ed; eauto. exfalso.
        apply nth_error_None in Ed. assert (i < length l) by (apply nth_error_Some; congruence). lia. }
      destruct Hd as (d & Ed). discriminate (Hzip i n d En Ed Et).
Qed.

(** ** checkInternalConsistency *)

Lemma check_ok ceq m :
  (forall c, ceq c c = true) -> consistent m -> check_internal_consistency ceq m = Ok tt.
Proof.
  intros Hceq Hc. unfold check_internal_consistency.
  pose proof (Permutation_length (c_index _ Hc)) as Hl. rewrite map_length in Hl.
  rewrite Hl, Nat.eqb_refl.
  assert (Hall : forall l0, (forall n, In n l0 -> In n (nodes m)) ->
    foldM (fun _ n => check_node ceq m n) l0 tt = Ok tt).
  { induction l0 as [|n l0 IH]; intros Hsub; [reflexivity|].
    cbn [foldM]. unfold check_node at 1.
    assert (Hi : In n (nodes m)) by (apply Hsub; simpl; auto).
    rewrite (cons_find _ _ Hc Hi), (cons_deref _ _ Hc Hi). simpl.
    rewrite N.eqb_refl, Hceq. simpl. apply IH. intros x Hx. apply Hsub. simpl. auto. }
  apply Hall. auto.
Qed.

(** ** Every call preserves the invariant *)

Definition step_good (g : N) m (cost : N) (r : outcome (N * mgr)) : Prop :=
  r = Abort \/ exists g' m', r = Ok (g', m') /\ consistent m' /\ keys_below g' m' /\
    (g <= g' <= g + cost)%N /\
    (forall k, In k (get_keys m') -> In k (get_keys m) \/ (g < k)%N).

Lemma step_good_same g m m' cost :
  consistent m' -> keys_below g m -> (forall k, In k (get_keys m') -> In k (get_keys m)) ->
  step_good g m cost (Ok (g, m')).
Proof.
  intros Hc Hb Hk. right. exists g, m'. split; [reflexivity|]. split; [exact Hc|].
  split; [|split; [lia|auto]].
  unfold keys_below in *. rewrite Forall_forall in *. auto.
Qed.

Lemma update_many_good kcs m :
  consistent m ->
  update_coefficients m kcs = Abort \/
  exists m', update_coefficients m kcs = Ok m' /\ consistent m' /\
    get_keys m' = get_keys m /\ get_times m' = get_times m.
Proof.
  unfold update_coefficients. revert m.
  induction kcs as [|[k c] kcs IH]; intros m Hc; simpl; [eauto 6|].
  destruct (in_dec N.eq_dec k (get_keys m)) as [Hk|Hk].
  - destruct (update_spec m k c Hc Hk) as (m1 & -> & Hc1 & Et & Ek & _). simpl.
    destruct (IH m1 Hc1) as [->|(m' & -> & Hc' & Ek' & Et')]; auto.
    right. exists m'. repeat split; try (destruct Hc'; assumption); congruence.
  - rewrite (update_abort m k c Hc Hk). auto.
Qed.

Lemma exec_call_good g m (o : call T C) :
  consistent m -> keys_below g m -> (g + call_cost o < key_mod)%N -> call_defined m o ->
  step_good g m (call_cost o) (exec_call g m o).
Proof.
  intros Hc Hb Hg Hd. destruct o as [t c|ts cs|t c|t|k c|kcs|ts cs|i t c|]; simpl in *.
  - destruct (insert_general m g t c Hc Hb Hg) as (g' & m' & k & -> & Hc' & Hb' & Hg' & (new & Hp & Hn & _) & _).
    simpl. right. exists g', m'. repeat (split; [first [reflexivity | assumption]|]).
    intros k0 Hk0. eapply Permutation_in in Hk0; [|exact Hp]. rewrite in_app_iff in Hk0.
    destruct Hk0 as [Hk0|Hk0]; auto. rewrite Forall_forall in Hn. specialize (Hn _ Hk0). lia.
  - unfold insert_coefficients. destruct (Nat.eqb_spec (length ts) (length cs)) as [E|E]; [|left; reflexivity].
    destruct (insert_loop_spec (combine ts cs) g m [] Hc Hb) as
      (g' & m' & ks & -> & Hc' & Hb' & Hg' & (new & Hp & Hn & _) & _).
    { rewrite combine_length, E, Nat.min_id, <- E. exact Hg. }
    rewrite combine_length, E, Nat.min_id, <- E in Hg'.
    simpl. right. exists g', m'. repeat (split; [first [reflexivity | assumption]|]).
    intros k0 Hk0. eapply Permutation_in in Hk0; [|exact Hp]. rewrite in_app_iff in Hk0.
    destruct Hk0 as [Hk0|Hk0]; auto. rewrite Forall_forall in Hn. specialize (Hn _ Hk0). lia.
  - destruct (tlt (max_time m) t) eqn:Et.
    + destruct (nodes m) as [|n0 l0] eqn:E0.
      { exfalso. unfold empty in Hd. unfold max_time in Et. rewrite E0 in *. simpl in Et.
        destruct Hd as [Hd|Hd]; [discriminate|]. unfold last_node in Et. simpl in Et. congruence. }
      destruct (add_end_spec m g t c [] Hc Hb Hg) as (m' & -> & Hc' & Hb' & En & _);
        [rewrite E0; discriminate | exact Et |].
      simpl. right. exists (g + 1)%N, m'. repeat (split; [first [reflexivity | assumption | lia]|]).
      intros k Hk. unfold get_keys in *. rewrite En, map_app, in_app_iff in Hk. simpl in Hk.
      destruct Hk as [Hk|[<-|[]]]; auto. right. lia.
    + left. unfold add_coefficient_at_end. now rewrite Et.
  - destruct (has_coefficient_at_time m t) eqn:Eh.
    + apply present_has in Eh as (k & c & Hh); auto.
      destruct (remove_present m t k c Hc Hh) as (m' & -> & Hc' & Hp & _). simpl.
      apply step_good_same; auto. intros k0 Hk0.
      eapply Permutation_in; [symmetry; exact Hp|]. simpl. auto.
    + left. rewrite remove_absent; auto. intros Hp. apply present_has in Hp; auto. congruence.
  - destruct (in_dec N.eq_dec k (get_keys m)) as [Hk|Hk].
    + destruct (update_spec m k c Hc Hk) as (m1 & -> & Hc1 & Et & Ek & _). simpl.
      apply step_good_same; auto. rewrite Ek. auto.
    + left. now rewrite (update_abort m k c Hc Hk).
  - destruct (update_many_good kcs m Hc) as [->|(m' & -> & Hc' & Ek & _)]; [left; reflexivity|].
    simpl. apply step_good_same; auto. rewrite Ek. auto.
  - unfold modify_in_batch.
    destruct (Nat.eqb_spec (length ts) (length cs)) as [E|E]; simpl; [|left; reflexivity].
    destruct Hd as [Hd|(t0 & r & p & n & -> & El & Hle & Hh)]; [congruence|].
    destruct n as [|a n]; [destruct Hh|].
    unfold get_times in El. 
    assert (Hsplit : exists p' x q', nodes m = p' ++ x :: q' /\ p = map n_time p' /\ a = n_time x /\ n = map n_time q').
    { apply map_eq_app in El as (p' & q & -> & <- & Eq).
      destruct q as [|x q']; [discriminate|]. simpl in Eq. injection Eq as <- <-. eauto 8. }
    destruct Hsplit as (p' & x & q' & El' & -> & -> & ->).
    pose proof (cons_sorted _ Hc) as Hs. rewrite El' in Hs. apply sorted_split in Hs as [_ Hbig].
    assert (Hq : Forall (fun y => teq (n_time y) t0 = false) q').
    { eapply Forall_impl; [|exact Hbig]. intros y Hy. apply teq_false. right.
      now rewrite <- (tlt_teq_l _ _ (n_time y) Hh). }
    assert (Er : rev (nodes m) = rev q' ++ x :: rev p').
    { rewrite El'. rewrite rev_app_distr. simpl. now rewrite <- app_assoc. }
    rewrite Er, (batch_seek_at _ _ [] _ _ Hq Hh). simpl. rewrite app_nil_r.
    simpl in Hle. rewrite map_length in Hle.
    destruct (batch_write_cases (x :: q') (t0 :: r) cs E ltac:(simpl; lia))
      as [Ew|(a & b & Eab & Hf & Ew)]; simpl in Ew; rewrite Ew.
    + left. reflexivity.
    + simpl. rewrite rev_involutive.
      assert (Hc' : consistent (Mgr (p' ++ zip_coef a cs ++ b) (index m) (fresh m))).
      { apply (consistent_zip m p' a b cs Hc). now rewrite <- Eab. }
      apply step_good_same; auto. unfold get_keys. simpl. rewrite El', Eab.
      rewrite !map_app, zip_coef_keys. auto.
  - destruct Hd as [Hi Hp]. unfold size in Hi.
    assert (Hn : exists n, nth_error (nodes m) i = Some n).
    { destruct (nth_error (nodes m) i) eqn:En; eauto. apply nth_error_None in En. lia. }
    destruct Hn as (n & En). unfold iter_at. rewrite En. apply nth_error_In in En.
    destruct (move_spec m n t c Hc En Hp) as (m' & -> & Hc' & Hperm & _). simpl.
    apply step_good_same; auto. intros k Hk. eapply Permutation_in; eauto.
  - apply step_good_same; auto; [|simpl; tauto].
    constructor; simpl; constructor.
Qed.

(** ** Worlds *)

Lemma set_nth_length {A} i (a : A) (l : list A) : length (set_nth i a l) = length l.
Proof. revert i. induction l as [|b l IH]; intros [|i]; simpl; auto. Qed.

Lemma set_nth_split {A} (l : list A) i x :
  nth_error l i = Some x ->
  exists p q, l = p ++ x :: q /\ length p = i /\ forall a, set_nth i a l = p ++ a :: q.
Proof.
  revert i. induction l as [|b l IH]; intros [|i] E; simpl in *; try discriminate.
  - injection E as ->. exists [], l. auto.
  - destruct (IH i E) as (p & q & -> & <- & Ea). exists (b :: p), q.
    repeat split; auto. intros a. now rewrite Ea.
Qed.

Lemma exec_world_good (w : world T C) io :
  world_ok w -> (w_gen w + call_cost (snd io) < key_mod)%N ->
  (forall m, nth_error (w_mgrs w) (fst io) = Some m -> call_defined m (snd io)) ->
  exec_world w io = Abort \/ exists w', exec_world w io = Ok w' /\ world_ok w' /\
    (w_gen w <= w_gen w' <= w_gen w + call_cost (snd io))%N /\
    length (w_mgrs w') = length (w_mgrs w).
Proof.
  intros [Hc Hb Hn Hg] Hcost Hd. unfold exec_world.
  destruct (nth_error (w_mgrs w) (fst io)) as [m|] eqn:Em.
  2:{ right. exists w. split; [reflexivity|]. split; [constructor; auto|]. split; [lia|reflexivity]. }
  destruct (set_nth_split (w_mgrs w) (fst io) m Em) as (p & q & Ew & Hlen & Eset).
  rewrite Ew in Hc, Hb, Hn.
  rewrite Forall_app in Hc, Hb. destruct Hc as [Hcp Hcq], Hb as [Hbp Hbq].
  inversion Hcq as [|? ? Hcm Hcq']; subst. inversion Hbq as [|? ? Hbm Hbq']; subst.
  destruct (exec_call_good (w_gen w) m (snd io) Hcm Hbm Hcost (Hd m eq_refl))
    as [->|(g' & m' & -> & Hc' & Hb' & Hg' & Hk)]; [left; reflexivity|].
  simpl. right. eexists. split; [reflexivity|]. rewrite Eset.
  split; [|split; [simpl; lia | simpl; rewrite Ew, !app_length; reflexivity]].
  rewrite map_app, concat_app in Hn. simpl in Hn.
  assert (Hmono : forall ms : list mgr, Forall (keys_below (w_gen w)) ms -> Forall (keys_below g') ms).
  { intros ms. apply Forall_impl. intros x. apply keys_below_mono. lia. }
  constructor; simpl.
  - apply Forall_app. split; auto.
  - apply Forall_app. split; [now apply Hmono|]. constructor; [exact Hb'|now apply Hmono].
  - rewrite map_app, concat_app. simpl.
    apply NoDup_app_iff in Hn as (Hnp & Hnmq & Hdis). apply NoDup_app_iff in Hnmq as (Hnm & Hnq & Hdis').
    assert (Hold : forall (ms : list mgr) k, Forall (keys_below (w_gen w)) ms -> In k (concat (map get_keys ms)) -> (k <= w_gen w)%N).
    { intros ms k Hf Hi. apply in_concat in Hi as (ks & Hks & Hi). apply in_map_iff in Hks as (x & <- & Hx).
      rewrite Forall_forall in Hf. specialize (Hf _ Hx). unfold keys_below in Hf.
      rewrite Forall_forall in Hf. specialize (Hf _ Hi). lia. }
    apply NoDup_app_iff. split; [exact Hnp|]. split.
    + apply NoDup_app_iff. split; [apply c_keys; exact Hc'|]. split; [exact Hnq|].
      intros x Hx Hq. destruct (Hk x Hx) as [Hx'|Hx']; [apply (Hdis' x); auto|].
      pose proof (Hold _ _ Hbq' Hq). lia.
    + intros x Hx Hi. rewrite in_app_iff in Hi. destruct Hi as [Hi|Hi].
      * destruct (Hk x Hi) as [Hx'|Hx']; [apply (Hdis x); auto; rewrite in_app_iff; auto|].
        pose proof (Hold _ _ Hbp Hx). lia.
      * apply (Hdis x); auto. rewrite in_app_iff. auto.
  - lia.
Qed.

Lemma exec_history_good h : forall (w : world T C),
  world_ok w -> history_defined w h -> (w_gen w + history_cost h < key_mod)%N ->
  exec_history w h = Abort \/
  exists w', exec_history w h = Ok w' /\ world_ok w' /\ length (w_mgrs w') = length (w_mgrs w) /\
    (w_gen w <= w_gen w' <= w_gen w + history_cost h)%N.
Proof.
  unfold exec_history. induction h as [|io h IH]; intros w Hw Hd Hcost; simpl.
  - right. exists w. repeat split; try (destruct Hw; assumption); lia.
  - simpl in Hd, Hcost. destruct Hd as [Hd1 Hd2].
    destruct (exec_world_good w io Hw) as [->|(w1 & E & Hw1 & Hg & Hl)]; [lia|exact Hd1|auto|].
    rewrite E. simpl. destruct (IH w1 Hw1 (Hd2 _ E)) as [->|(w' & -> & Hw' & Hl' & Hg')]; [lia|auto|].
    right. exists w'. split; [reflexivity|]. split; [exact Hw'|]. split; [congruence|lia].
Qed.

Lemma world_init_ok (n : nat) : world_ok (world_init n : world T C).
Proof.
  constructor; simpl.
  - apply Forall_forall. intros m Hm. apply repeat_spec in Hm. subst.
    constructor; simpl; constructor.
  - apply Forall_forall. intros m Hm. apply repeat_spec in Hm. subst. constructor.
  - induction n; simpl; [constructor|auto].
  - unfold key_mod. lia.
Qed.

(** ** Refinement to the association list *)

Lemma contents_times m : map fst (contents m) = get_times m.
Proof. unfold contents, get_times. rewrite map_map. reflexivity. Qed.

Definition tc n : T * C := (n_time n, n_coef n).

Lemma al_insert_app t c (a b : list (T * C)) :
  Forall (fun x => tlt (fst x) t = true) a -> al_insert t c (a ++ b) = a ++ al_insert t c b.
Proof.
  induction a as [|[t' c'] a IH]; intros Hf; simpl; auto. inversion Hf; subst. simpl in *.
  rewrite (tlt_asym _ _ H3), H3. now rewrite IH.
Qed.

Lemma al_insert_absent t c (a b : list (T * C)) :
  Forall (fun x => tlt (fst x) t = true) a -> Forall (fun x => tlt t (fst x) = true) b ->
  al_insert t c (a ++ b) = a ++ (t, c) :: b.
Proof.
  intros Ha Hb. rewrite al_insert_app by exact Ha. f_equal.
  destruct b as [|[t' c'] b]; [reflexivity|]. inversion Hb; subst. simpl in *. now rewrite H3.
Qed.

Lemma al_insert_present t c (a b : list (T * C)) t' c' :
  Forall (fun x => tlt (fst x) t = true) a -> teq t' t = true ->
  al_insert t c (a ++ (t', c') :: b) = a ++ (t', c) :: b.
Proof.
  intros Ha E. rewrite al_insert_app by exact Ha. f_equal. simpl.
  apply teq_spec in E as [E1 E2]. now rewrite E1, E2.
Qed.

Lemma contents_set_coef m a n b c :
  consistent m -> nodes m = a ++ n :: b ->
  map tc (set_coef (n_id n) c (nodes m)) = map tc a ++ (n_time n, c) :: map tc b.
Proof.
  intros Hc E. pose proof (c_ids _ Hc) as Hi. rewrite E in *.
  rewrite map_app in Hi. simpl in Hi. apply NoDup_remove_2 in Hi. rewrite in_app_iff in Hi.
  assert (X : forall l0, ~ In (n_id n) (map n_id l0) -> set_coef (n_id n) c l0 = l0).
  { unfold set_coef. induction l0 as [|x l0 IH]; simpl; auto. intros Hx.
    destruct (Nat.eqb_spec (n_id x) (n_id n)) as [Ex|Ex]; [tauto|]. rewrite IH; tauto. }
  unfold set_coef. rewrite map_app. simpl. rewrite Nat.eqb_refl.
  fold (set_coef (n_id n) c a). fold (set_coef (n_id n) c b).
  rewrite !X by tauto. rewrite map_app. reflexivity.
Qed.

Lemma insert_contents m g t c :
  consistent m -> keys_below g m -> (g + 1 < key_mod)%N ->
  exists g' m' k, insert_coefficient g m t c = Ok (g', m', k) /\
    contents m' = al_insert t c (contents m).
Proof.
  intros Hc Hb Hg. unfold insert_coefficient.
  destruct (scan_spec (nodes m) t (cons_sorted _ Hc)) as [(n & Hi & E & ->) | [Hf ->]].
  - destruct (update_ok m (n_key n) c Hc) as (n' & Hn' & Ek & Eu); [now apply in_map|].
    apply (key_unique _ _ _ Hc Hn' Hi) in Ek. subst n'. rewrite Eu. simpl.
    eexists _, _, _. split; [reflexivity|].
    apply in_split in Hi as (a & b & El). unfold contents.
    change (map tc (set_coef (n_id n) c (nodes m)) = al_insert t c (map tc (nodes m))).
    rewrite (contents_set_coef m a n b c Hc El), El, map_app. simpl.
    symmetry. apply al_insert_present; auto.
    pose proof (cons_sorted _ Hc) as Hs. rewrite El in Hs. apply sorted_split in Hs as [Ha _].
    apply Forall_map. eapply Forall_impl; [|exact Ha]. simpl. intros x Hx.
    now rewrite <- (tlt_teq_r _ _ (n_time x) E).
  - rewrite (next_key_nowrap _ Hg).
    destruct (map_insert_absent (Node (fresh m) t (g + 1)%N c) (nodes m) (cons_sorted _ Hc))
      as (a & b & El & Ha & Hbb & Ei); [exact Hf|].
    rewrite Ei. simpl in *. eexists _, _, _. split; [reflexivity|].
    unfold contents. simpl. rewrite El, !map_app. simpl. symmetry.
    apply al_insert_absent; apply Forall_map; assumption.
Qed.

Lemma insert_loop_contents tcs : forall g m out,
  consistent m -> keys_below g m -> (g + N.of_nat (length tcs) < key_mod)%N ->
  exists g' m' ks, insert_loop g m tcs out = Ok (g', m', ks) /\
    contents m' = fold_left (fun al x => al_insert (fst x) (snd x) al) tcs (contents m).
Proof.
  induction tcs as [|[t c] tcs IH]; intros g m out Hc Hb Hg; simpl; [eauto 6|].
  cbn [length] in Hg. rewrite Nat2N.inj_succ in Hg.
  destruct (insert_general m g t c Hc Hb) as (g1 & m1 & k & E & Hc1 & Hb1 & Hg1 & _); [lia|].
  destruct (insert_contents m g t c Hc Hb) as (g1' & m1' & k' & E' & Ec); [lia|].
  rewrite E in E'. injection E' as <- <- <-. rewrite E. simpl. rewrite <- Ec.
  apply IH; auto. lia.
Qed.

Lemma al_max_spec m : al_max (contents m) = max_time m.
Proof.
  unfold al_max. rewrite contents_times. unfold get_times, max_time.
  destruct (nodes m) as [|n l] using rev_ind; [reflexivity|].
  rewrite last_node_app, map_app. simpl. apply last_last.
Qed.

Lemma al_has_spec m t : consistent m -> al_has t (contents m) = has_coefficient_at_time m t.
Proof.
  intros Hc. unfold al_has, contents, has_coefficient_at_time. rewrite map_find_teq.
  induction (nodes m) as [|n l IH]; [reflexivity|]. simpl.
  destruct (teq (n_time n) t); auto.
Qed.

Lemma remove_contents m t k c :
  consistent m -> holds m t k c ->
  exists m', remove_coefficient_at_time m t = Ok m' /\ contents m' = al_remove t (contents m).
Proof.
  intros Hc Hh. assert (Hp : present m t) by (exists k, c; exact Hh).
  destruct Hh as (n & Hi & E & <- & <-).
  unfold remove_coefficient_at_time.
  apply present_has in Hp as ->; auto.
  rewrite map_find_scan by now apply cons_sorted.
  rewrite (scan_some _ _ _ (cons_sorted _ Hc) Hi E), (cons_find _ _ Hc Hi).
  eexists. split; [reflexivity|].
  apply in_split in Hi as (a & b & El).
  assert (Hids : NoDup (map n_id (a ++ n :: b))) by (rewrite <- El; apply c_ids; auto).
  unfold contents. simpl. rewrite El, (map_erase_split _ a n b Hids eq_refl).
  pose proof (cons_sorted _ Hc) as Hs. rewrite El in Hs. apply sorted_split in Hs as [Ha Hb].
  unfold al_remove. rewrite !map_app, filter_app. simpl. rewrite E. simpl.
  assert (X : forall l0, Forall (fun x => teq (n_time x) t = false) l0 ->
    filter (fun x : T * C => negb (teq (fst x) t)) (map (fun n => (n_time n, n_coef n)) l0) =
    map (fun n => (n_time n, n_coef n)) l0).
  { induction l0 as [|x l0 IH]; simpl; auto. intros Hf. inversion Hf; subst.
    rewrite H3. simpl. now rewrite IH. }
  rewrite !X; auto.
  - eapply Forall_impl; [|exact Hb]. simpl. intros x Hx. apply teq_false. right.
    now rewrite <- (tlt_teq_l _ _ (n_time x) E).
  - eapply Forall_impl; [|exact Ha]. simpl. intros x Hx. apply teq_false. left.
    now rewrite <- (tlt_teq_r _ _ (n_time x) E).
Qed.

Lemma batch_write_contents l ts cs :
  (let* l' := batch_write l ts cs in Ok (map tc l')) = al_write (map tc l) ts cs.
Proof.
  revert l cs. induction ts as [|t ts IH]; intros l cs; simpl.
  - now destruct l, cs.
  - destruct cs as [|c cs]; [now destruct l|]. destruct l as [|n l]; simpl; [reflexivity|].
    destruct (teq (n_time n) t); [|reflexivity].
    rewrite <- IH. now destruct (batch_write l ts cs).
Qed.

Lemma al_batch_skip (a l : list (T * C)) t0 ts cs :
  Forall (fun x => teq (fst x) t0 = false) a ->
  al_batch (a ++ l) t0 ts cs = let* r := al_batch l t0 ts cs in Ok (a ++ r).
Proof.
  induction a as [|[t' c'] a IH]; intros Hf; simpl.
  - now destruct (al_batch l t0 ts cs).
  - inversion Hf; subst. simpl in *. rewrite H3, IH by auto.
    now destruct (al_batch l t0 ts cs).
Qed.

Lemma batch_contents m ts cs :
  consistent m ->
  (let* m' := modify_in_batch m ts cs in Ok (contents m')) = al_call (contents m) (CBatch ts cs).
Proof.
  intros Hc. simpl. unfold modify_in_batch.
  destruct (Nat.eqb (length ts) (length cs)); simpl; [|reflexivity].
  destruct ts as [|t0 ts]; [reflexivity|].
  destruct (scan_spec (nodes m) t0 (cons_sorted _ Hc)) as [(n & Hi & E & _) | [Hf _]].
  - apply in_split in Hi as (a & b & El).
    pose proof (cons_sorted _ Hc) as Hs. rewrite El in Hs. apply sorted_split in Hs as [Ha Hb].
    assert (Hq : Forall (fun y => teq (n_time y) t0 = false) b).
    { eapply Forall_impl; [|exact Hb]. intros y Hy. apply teq_false. right.
      now rewrite <- (tlt_teq_l _ _ (n_time y) E). }
    assert (Er : rev (nodes m) = rev b ++ n :: rev a).
    { rewrite El. rewrite rev_app_distr. simpl. now rewrite <- app_assoc. }
    rewrite Er, (batch_seek_at _ _ [] _ _ Hq E). rewrite app_nil_r. cbn [bind].
    change (contents m) with (map tc (nodes m)). rewrite El, map_app.
    rewrite al_batch_skip.
    + cbn [map]. cbn [al_batch tc]. fold (tc n). cbn [tc]. rewrite E.
      change (tc n :: map tc b) with (map tc (n :: b)).
      rewrite <- batch_write_contents.
      destruct (batch_write (n :: b) (t0 :: ts) cs); cbn [bind]; auto.
      unfold contents. simpl. rewrite rev_involutive, map_app. reflexivity.
    + apply Forall_map. simpl. eapply Forall_impl; [|exact Ha]. intros x Hx. apply teq_false. left.
      now rewrite <- (tlt_teq_r _ _ (n_time x) E).
  - rewrite batch_seek_none by (apply Forall_rev; exact Hf). simpl.
    symmetry. change (contents m) with (map tc (nodes m)).
    clear - Hf. induction (nodes m) as [|x l IH]; [reflexivity|]. inversion Hf; subst.
    simpl. rewrite H2, IH by auto. reflexivity.
Qed.

Lemma al_delete_app i (a : list (T * C)) x b :
  length a = i -> al_delete i (a ++ x :: b) = a ++ b.
Proof.
  intros <-. induction a as [|y a IH]; simpl; auto. now rewrite IH.
Qed.

Lemma move_contents m i n t c :
  consistent m -> nth_error (nodes m) i = Some n -> ~ present m t ->
  exists m', modify_coefficient m (At (n_id n)) t c = Ok m' /\
    contents m' = al_insert t c (al_delete i (contents m)).
Proof.
  intros Hc En Hp. pose proof (nth_error_In _ _ En) as Hi.
  unfold modify_coefficient. rewrite (cons_deref _ _ Hc Hi). simpl.
  pose proof (not_present_forall _ _ Hp) as Hf.
  destruct (map_insert_absent (Node (fresh m) t (n_key n) c) (nodes m) (cons_sorted _ Hc))
    as (a & b & El & Ha & Hb & Ei); [exact Hf|].
  simpl in Ha, Hb. rewrite Ei. eexists. split; [reflexivity|].
  apply nth_error_split in En as (x & y & Exy & Hlen).
  change (contents m) with (map tc (nodes m)). rewrite Exy at 1. rewrite map_app. cbn [map].
  rewrite al_delete_app by (now rewrite map_length).
  pose proof (c_ids _ Hc) as Hids.
  assert (Hne : fresh m <> n_id n).
  { pose proof (c_fresh _ Hc) as Hfr. rewrite Forall_forall in Hfr. specialize (Hfr _ Hi). lia. }
  unfold contents. simpl.
  assert (Ee : map_erase (n_id n) (a ++ Node (fresh m) t (n_key n) c :: b) =
               map_erase (n_id n) a ++ Node (fresh m) t (n_key n) c :: map_erase (n_id n) b).
  { unfold map_erase. rewrite filter_app. simpl.
    destruct (Nat.eqb_spec (fresh m) (n_id n)); [congruence|]. reflexivity. }
  rewrite Ee.
  assert (Eo : x ++ y = map_erase (n_id n) a ++ map_erase (n_id n) b).
  { unfold map_erase. rewrite <- filter_app, <- El, Exy. symmetry.
    apply map_erase_split; auto. now rewrite <- Exy. }
  rewrite <- map_app, Eo, !map_app. simpl. symmetry.
  apply al_insert_absent; apply Forall_map; simpl; apply Forall_forall; intros z Hz;
    apply filter_In in Hz as [Hz _].
  - rewrite Forall_forall in Ha. auto.
  - rewrite Forall_forall in Hb. auto.
Qed.

(** The manager, seen without keys, is the sorted association list. *)
Lemma call_refines g m (o : call T C) :
  consistent m -> keys_below g m -> (g + call_cost o < key_mod)%N -> key_free o = true ->
  match o with CMove i t _ => i < size m /\ ~ present m t | _ => True end ->
  (let* (_, m') := exec_call g m o in Ok (contents m')) = al_call (contents m) o.
Proof.
  intros Hc Hb Hg Hk Hd. destruct o as [t c|ts cs|t c|t|k c|kcs|ts cs|i t c|]; simpl in Hk; try discriminate.
  - destruct (insert_contents m g t c Hc Hb Hg) as (g' & m' & k & E & Ec). simpl.
    rewrite E. simpl. now rewrite Ec.
  - simpl. unfold insert_coefficients. simpl in Hg.
    destruct (Nat.eqb_spec (length ts) (length cs)) as [E|E]; [|reflexivity].
    destruct (insert_loop_contents (combine ts cs) g m [] Hc Hb) as (g' & m' & ks & El & Ec).
    { rewrite combine_length, E, Nat.min_id, <- E. exact Hg. }
    rewrite El. simpl. now rewrite Ec.
  - simpl. rewrite al_max_spec. simpl in Hg. unfold exec_call.
    destruct (tlt (max_time m) t) eqn:Et.
    + destruct (nodes m) as [|n0 l0] eqn:E0.
      { unfold add_coefficient_at_end, contents. rewrite Et, E0. reflexivity. }
      destruct (add_end_spec m g t c [] Hc Hb Hg) as (m' & E & _ & _ & En & _);
        [rewrite E0; discriminate | exact Et |].
      rewrite E. simpl. unfold contents. rewrite En, map_app. simpl.
      now rewrite E0.
    + unfold add_coefficient_at_end. now rewrite Et.
  - simpl. rewrite al_has_spec by exact Hc.
    destruct (has_coefficient_at_time m t) eqn:Eh.
    + apply present_has in Eh as (k & c & Hh); auto.
      destruct (remove_contents m t k c Hc Hh) as (m' & -> & Ec). simpl. now rewrite Ec.
    + rewrite remove_absent; auto. intros Hp. apply present_has in Hp; auto. congruence.
  - rewrite <- batch_contents by exact Hc. simpl. now destruct (modify_in_batch m ts cs).
  - destruct Hd as [Hi Hp]. unfold size in Hi.
    assert (Hn : exists n, nth_error (nodes m) i = Some n).
    { destruct (nth_error (nodes m) i) eqn:En; eauto. apply nth_error_None in En. lia. }
    destruct Hn as (n & En). simpl. unfold iter_at. rewrite En.
    destruct (move_contents m i n t c Hc En Hp) as (m' & -> & Ec). simpl. now rewrite Ec.
  - reflexivity.
Qed.

Lemma calls_refine h : forall g m,
  consistent m -> keys_below g m -> (g + calls_cost h < key_mod)%N ->
  Forall (fun o => key_free o = true) h -> moves_ok (contents m) h ->
  (let* (_, m') := exec_calls g m h in Ok (contents m')) = al_history (contents m) h /\
  (forall g' m', exec_calls g m h = Ok (g', m') ->
     consistent m' /\ keys_below g' m' /\ (g <= g' <= g + calls_cost h)%N /\
     forall k, In k (get_keys m') -> In k (get_keys m) \/ (g < k)%N).
Proof.
  unfold exec_calls, al_history. induction h as [|o h IH]; intros g m Hc Hb Hg Hf Hmv.
  - simpl. split; [reflexivity|]. intros g' m' [= <- <-].
    repeat split; try (destruct Hc; assumption); try (destruct Hb; assumption); auto; lia.
  - cbn [foldM fst snd]. inversion Hf as [|? ? Hkf Hf']; subst.
    cbn [calls_cost fold_right] in *. fold (calls_cost h) in *.
    cbn [moves_ok] in Hmv. destruct Hmv as [Hmv Hmv'].
    assert (Hsp : match o with CMove i t _ => i < size m /\ ~ present m t | _ => True end).
    { destruct o; try exact I. destruct Hmv as [Hi Hh]. rewrite al_has_spec in Hh by exact Hc.
      unfold contents in Hi. rewrite map_length in Hi. split; [exact Hi|].
      intros Hp. apply present_has in Hp; [congruence|exact Hc]. }
    pose proof (call_refines g m o Hc Hb ltac:(lia) Hkf Hsp) as Href.
    destruct (exec_call g m o) as [[g1 m1]| | |] eqn:E; simpl in Href.
    + rewrite <- Href. cbn [bind].
      assert (Hgood : step_good g m (call_cost o) (Ok (g1, m1))).
      { destruct o as [t c|ts cs|t c|t|k c|kcs|ts cs|i t c|]; try discriminate;
          try (rewrite <- E; apply exec_call_good; solve [assumption | lia | exact I | exact Hsp]).
        - rewrite <- E. apply exec_call_good; auto; [lia|]. simpl. simpl in Href.
          destruct (empty m) eqn:Ee; auto. right. unfold empty in Ee.
          destruct (nodes m) eqn:E0; [|discriminate]. rewrite al_max_spec in Href.
          unfold contents in Href. rewrite E0 in Href. simpl in Href.
          unfold max_time in Href. rewrite E0 in Href. simpl in Href. unfold last_node in Href. simpl in Href.
          destruct (tlt tzero t); [discriminate|reflexivity].
        - (* a successful batch call leaves consistency intact *)
          simpl in E. apply bind_ok_inv in E as (m1' & E & [= <- <-]).
          unfold modify_in_batch in E.
          destruct (Nat.eqb_spec (length ts) (length cs)) as [El|El]; [|discriminate]. simpl in E.
          destruct ts as [|t0 ts]; [discriminate|].
          apply bind_ok_inv in E as ([b suf] & Es & E).
          apply bind_ok_inv in E as (suf' & Ew & [= <-]).
          apply batch_seek_some in Es as [Eb _].
          rewrite rev_involutive, app_nil_r in Eb.
          assert (Hws : exists x y, suf = x ++ y /\ suf' = zip_coef x cs ++ y).
          { clear - Ew El. revert suf suf' cs Ew El. generalize (t0 :: ts) as us.
            induction us as [|u us IHu]; intros suf suf' cs Ew El.
            - simpl in Ew. injection Ew as <-. exists [], suf. auto.
            - destruct cs as [|c cs]; [discriminate|]. destruct suf as [|n suf]; [discriminate|].
              simpl in Ew. destruct (teq (n_time n) u); [|discriminate].
              apply bind_ok_inv in Ew as (r' & Ew & [= <-]).
              destruct (IHu suf r' cs Ew) as (x & y & -> & ->); [simpl in El; lia|].
              exists (n :: x), y. auto. }
          destruct Hws as (x & y & -> & ->).
          apply step_good_same; auto.
          + exact (consistent_zip m (rev b) x y cs Hc Eb).
          + unfold get_keys. simpl. rewrite Eb. rewrite !map_app, zip_coef_keys. auto. }
      destruct Hgood as [Hx|(g2 & m2 & [= <- <-] & Hc2 & Hb2 & Hg2 & Hk2)]; [discriminate|].
      destruct (IH g1 m1 Hc2 Hb2 ltac:(lia) Hf' (Hmv' _ (eq_sym Href))) as [IH1 IH2].
      split; [exact IH1|]. intros g' m' E'. destruct (IH2 _ _ E') as (Hc' & Hb' & Hg' & Hk').
      split; [exact Hc'|]. split; [exact Hb'|]. split; [lia|].
      intros k Hk. destruct (Hk' k Hk) as [Hk1|Hk1]; [|right; lia].
      destruct (Hk2 k Hk1); auto.
    + rewrite <- Href. simpl. split; [reflexivity|]. intros; discriminate.
    + rewrite <- Href. simpl. split; [reflexivity|]. intros; discriminate.
    + rewrite <- Href. simpl. split; [reflexivity|]. intros; discriminate.
Qed.

End Proofs.
