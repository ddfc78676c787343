(** * Lemmas about the key generator model *)

From Coq Require Import List Bool NArith Arith Lia FinFun.
From Verif Require Import KeyGen.
Import ListNotations.

(** The first [n] keys, in the order they are handed out. *)
Definition first_keys (n : nat) : list N := map (fun i => (N.of_nat i mod key_mod)%N) (seq 1 n).

Lemma first_keys_succ n : first_keys (S n) = first_keys n ++ [(N.of_nat (S n) mod key_mod)%N].
Proof. unfold first_keys. rewrite seq_S, map_app. reflexivity. Qed.

(** What is known about each thread, given the mutex owner and the counter. *)
Definition pc_ok (s : kstate) : Prop :=
  match k_owner s with
  | None => (forall t, k_pc s t = Idle) /\
            k_counter s = (N.of_nat (length (k_log s)) mod key_mod)%N
  | Some o =>
      (forall t, t <> o -> k_pc s t = Idle) /\
      match k_pc s o with
      | Idle => False
      | Locked => k_counter s = (N.of_nat (length (k_log s)) mod key_mod)%N
      | Loaded v => k_counter s = v /\ v = (N.of_nat (length (k_log s)) mod key_mod)%N
      | Stored v => k_counter s = v /\ v = (N.of_nat (S (length (k_log s))) mod key_mod)%N
      end
  end.

Definition kinv (s : kstate) : Prop :=
  pc_ok s /\ rev (map snd (k_log s)) = first_keys (length (k_log s)).

Lemma next_key_mod n :
  next_key (N.of_nat n mod key_mod) = (N.of_nat (S n) mod key_mod)%N.
Proof.
  unfold next_key. rewrite N.add_mod_idemp_l by (unfold key_mod; lia).
  f_equal. lia.
Qed.

Lemma upd_same f t p : upd_pc f t p t = p.
Proof. unfold upd_pc. now rewrite Nat.eqb_refl. Qed.
Lemma upd_other f t t' p : t' <> t -> upd_pc f t p t' = f t'.
Proof. unfold upd_pc. intros Hne. destruct (Nat.eqb_spec t' t); [contradiction|reflexivity]. Qed.

Lemma kinv_step t s : kinv s -> kinv (kstep t s).
Proof.
  intros [Hp Hl]. unfold kstep, kinv, pc_ok in *.
  destruct (k_pc s t) as [| |v|v] eqn:Ept.
  - destruct (k_owner s) as [o|] eqn:Eo; simpl.
    + rewrite Eo. auto.
    + destruct Hp as [Hidle Hc]. split; [|exact Hl]. rewrite upd_same. split; [|exact Hc].
      intros t' Hne. rewrite upd_other by exact Hne. apply Hidle.
  - destruct (k_owner s) as [o|] eqn:Eo; simpl.
    2:{ destruct Hp as [Hidle _]. rewrite Hidle in Ept. discriminate. }
    destruct Hp as [Hidle Hc].
    destruct (Nat.eq_dec t o) as [->|Hne]; [|rewrite Hidle in Ept by exact Hne; discriminate].
    rewrite Ept in Hc. split; [|exact Hl]. rewrite upd_same. split; [|auto].
    intros t' Hne. rewrite upd_other by exact Hne. auto.
  - destruct (k_owner s) as [o|] eqn:Eo; simpl.
    2:{ destruct Hp as [Hidle _]. rewrite Hidle in Ept. discriminate. }
    destruct Hp as [Hidle Hc].
    destruct (Nat.eq_dec t o) as [->|Hne]; [|rewrite Hidle in Ept by exact Hne; discriminate].
    rewrite Ept in Hc. destruct Hc as [Hc1 Hc2]. split; [|exact Hl]. rewrite upd_same. split.
    + intros t' Hne. rewrite upd_other by exact Hne. auto.
    + split; [reflexivity|]. rewrite Hc2. apply next_key_mod.
  - destruct (k_owner s) as [o|] eqn:Eo; simpl.
    2:{ destruct Hp as [Hidle _]. rewrite Hidle in Ept. discriminate. }
    destruct Hp as [Hidle Hc].
    destruct (Nat.eq_dec t o) as [->|Hne]; [|rewrite Hidle in Ept by exact Hne; discriminate].
    rewrite Ept in Hc. destruct Hc as [Hc1 Hc2]. split; [split|].
    + intros t'. destruct (Nat.eq_dec t' o) as [->|Hne]; [apply upd_same|].
      rewrite upd_other by exact Hne. auto.
    + rewrite Hc1, Hc2. reflexivity.
    + rewrite Hl, first_keys_succ. now rewrite Hc2.
Qed.

Lemma kinv_run sched : kinv (krun sched).
Proof.
  unfold krun.
  assert (Hgen : forall s, kinv s -> kinv (fold_left (fun s t => kstep t s) sched s)).
  { induction sched as [|t sched IH]; intros s Hs; simpl; auto.
    apply IH. now apply kinv_step. }
  apply Hgen. split; [|reflexivity]. unfold pc_ok. simpl. auto.
Qed.

Lemma returned_keys_spec sched :
  rev (returned_keys sched) = first_keys (length (returned_keys sched)).
Proof.
  unfold returned_keys. rewrite map_length. apply kinv_run.
Qed.

Lemma first_keys_nodup n : (N.of_nat n < key_mod)%N -> NoDup (first_keys n).
Proof.
  intros Hn. unfold first_keys.
  assert (E : map (fun i => (N.of_nat i mod key_mod)%N) (seq 1 n) = map N.of_nat (seq 1 n)).
  { apply map_ext_in. intros i Hi. apply in_seq in Hi. apply N.mod_small. lia. }
  rewrite E. apply Injective_map_NoDup; [|apply seq_NoDup].
  intros a b. apply Nat2N.inj.
Qed.

Lemma returned_keys_nodup sched :
  (N.of_nat (length (returned_keys sched)) < key_mod)%N -> NoDup (returned_keys sched).
Proof.
  intros Hn.
  pose proof (first_keys_nodup _ Hn) as Hd. rewrite <- returned_keys_spec in Hd.
  apply NoDup_rev in Hd. now rewrite rev_involutive in Hd.
Qed.

(** One thread making [n] calls after another. *)
Lemma single_thread n : forall s, k_owner s = None -> k_pc s 0 = Idle ->
  let s' := fold_left (fun s t => kstep t s) (repeat 0 (4 * n)) s in
  k_owner s' = None /\ k_pc s' 0 = Idle /\ length (k_log s') = length (k_log s) + n.
Proof.
  induction n as [|n IH]; intros s Ho Hp; [simpl; auto|].
  replace (4 * S n) with (4 + 4 * n) by lia. rewrite repeat_app, fold_left_app.
  set (s1 := fold_left (fun s t => kstep t s) (repeat 0 4) s).
  assert (H1 : k_owner s1 = None /\ k_pc s1 0 = Idle /\ length (k_log s1) = S (length (k_log s))).
  { destruct s as [ctr ow pcs lg]. simpl in Ho, Hp. subst ow.
    unfold s1, kstep. simpl. rewrite Hp. simpl. auto. }
  destruct H1 as (Ho1 & Hp1 & Hl1). destruct (IH s1 Ho1 Hp1) as (A & B & D).
  repeat split; auto. lia.
Qed.

Lemma returned_keys_single n : length (returned_keys (repeat 0 (4 * n))) = n.
Proof.
  unfold returned_keys, krun. rewrite map_length.
  destruct (single_thread n kinit eq_refl eq_refl) as (_ & _ & E). exact E.
Qed.

(** The key returned by the i-th completed call, counting from 0. *)
Lemma returned_keys_nth sched i :
  i < length (returned_keys sched) ->
  nth_error (rev (returned_keys sched)) i = Some ((N.of_nat i + 1) mod key_mod)%N.
Proof.
  intros Hi. rewrite returned_keys_spec. unfold first_keys.
  rewrite nth_error_map, nth_error_nth' with (d := 0) by (now rewrite seq_length).
  rewrite seq_nth by exact Hi. simpl. do 2 f_equal. lia.
Qed.

Lemma keys_wrap : exists sched, ~ NoDup (returned_keys sched).
Proof.
  set (n := S (N.to_nat key_mod)). exists (repeat 0 (4 * n)). intros Hd.
  apply NoDup_rev in Hd.
  assert (Hl : length (returned_keys (repeat 0 (4 * n))) = n) by apply returned_keys_single.
  assert (Hpos : 0 < N.to_nat key_mod) by (unfold key_mod; lia).
  pose proof (returned_keys_nth (repeat 0 (4 * n)) 0 ltac:(rewrite Hl; unfold n; lia)) as E0.
  pose proof (returned_keys_nth (repeat 0 (4 * n)) (N.to_nat key_mod) ltac:(rewrite Hl; unfold n; lia)) as E1.
  rewrite N2Nat.id in E1.
  replace ((key_mod + 1) mod key_mod)%N with ((N.of_nat 0 + 1) mod key_mod)%N in E1.
  2:{ replace (key_mod + 1)%N with (1 + 1 * key_mod)%N by lia.
      rewrite N.mod_add by (unfold key_mod; lia). reflexivity. }
  rewrite <- E0 in E1.
  rewrite NoDup_nth_error in Hd. symmetry in E1. apply Hd in E1.
  - lia.
  - rewrite rev_length, Hl. unfold n. lia.
Qed.
