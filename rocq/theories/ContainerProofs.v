(** * Proofs about the spline container over the reals *)

From Coq Require Import List Reals Lra Lia Bool Arith ZArith.
From Verif Require Import Base Num TimeInst Spline SplineSpec LinSpec SplineProofs Container ContainerSpec.
Import ListNotations.
Local Open Scope R_scope.

Implicit Types (l : list (spline R)) (c : container R).

(** ** Start times *)

Lemma start_0 l : start l 0 = 0.
Proof. reflexivity. Qed.

Lemma start_cons s l n : start (s :: l) (S n) = s_duration s + start l n.
Proof. reflexivity. Qed.

Lemma start_all l n : (length l <= n)%nat -> start l n = total l.
Proof. intros L. unfold start, total. now rewrite firstn_all2. Qed.

Lemma start_S l n s : nth_error l n = Some s -> start l (S n) = start l n + s_duration s.
Proof.
  revert n. induction l as [|a l IH]; intros [|n] E; simpl in E; try discriminate.
  - injection E as ->. rewrite start_cons, !start_0. lra.
  - rewrite !start_cons, (IH n E). lra.
Qed.

Lemma start_S' l n s : nth_error l n = Some s -> start l (n + 1) = start l n + s_duration s.
Proof. rewrite Nat.add_1_r. apply start_S. Qed.

Lemma start_mono l n m : positive_durations l -> (n < m <= length l)%nat -> start l n < start l m.
Proof.
  intros Hp. revert n m. induction Hp as [|s l Hs Hp IH]; intros n m [H1 H2]; simpl in H2; [lia|].
  destruct m as [|m]; [lia|]. rewrite start_cons. destruct n as [|n].
  - rewrite start_0. destruct m as [|m]; [rewrite start_0; lra|].
    specialize (IH 0%nat (S m) ltac:(lia)). rewrite start_0 in IH. lra.
  - rewrite start_cons. specialize (IH n m ltac:(lia)). lra.
Qed.

Lemma start_mono_le l n m : positive_durations l -> (n <= m <= length l)%nat -> start l n <= start l m.
Proof.
  intros Hp [H1 H2]. destruct (Nat.eq_dec n m) as [->|]; [lra|].
  left. apply start_mono; auto. lia.
Qed.

Lemma in_charge_unique l n m t : positive_durations l -> in_charge l n t -> in_charge l m t -> n = m.
Proof.
  assert (W : forall n m, (n < m)%nat -> positive_durations l -> in_charge l n t -> in_charge l m t -> False).
  { intros a b Hab Hp (A1 & A2 & A3) (B1 & B2 & B3).
    destruct B2 as [->|B2]; [lia|]. destruct A3 as [A3|A3]; [|lia].
    pose proof (start_mono_le l (a + 1) b Hp ltac:(lia)). lra. }
  intros Hp Hn Hm. destruct (lt_eq_lt_dec n m) as [[H|H]|H]; auto; exfalso; eauto.
Qed.

Lemma in_charge_exists l t : l <> [] -> exists n, in_charge l n t.
Proof.
  intros Hl. induction l as [|s l IH] using rev_ind; [congruence|].
  destruct l as [|a l'].
  - exists 0%nat. split; [simpl; lia|]. split; auto.
  - destruct (IH ltac:(discriminate)) as (n & A & B & C). set (l := a :: l') in *.
    assert (St : forall k, (k <= length l)%nat -> start (l ++ [s]) k = start l k).
    { intros k Hk. unfold start. rewrite firstn_app. replace (k - length l)%nat with 0%nat by lia.
      simpl. now rewrite app_nil_r. }
    assert (Lb : length (l ++ [s]) = S (length l)) by (rewrite app_length; simpl; lia).
    destruct C as [C|C].
    + exists n. split; [lia|]. rewrite !St by lia. split; [exact B|]. left. exact C.
    + destruct (Rlt_dec t (start l (n + 1))) as [Ht|Ht].
      * exists n. split; [lia|]. rewrite !St by lia. split; auto.
      * exists (n + 1)%nat. split; [lia|]. rewrite St by lia. split; [right; lra|]. right. lia.
Qed.

(** ** Active spline *)

Lemma active_loop_spec t : forall l i off, l <> [] -> positive_durations l ->
  exists n, active_loop l i off t = ((i + Z.of_nat n)%Z, off + start l n) /\ in_charge l n (t - off).
Proof.
  induction l as [|s l IH]; intros i off Hl Hp; [congruence|].
  inversion Hp as [|? ? Hs Hp']; subst. simpl. numR. destruct (Rltb (t - off) (s_duration s)) eqn:E.
  - apply Rltb_lt in E. exists 0%nat. rewrite start_0. split; [f_equal; [lia|lra]|].
    split; [simpl; lia|]. split; [auto|]. left. simpl (0 + 1)%nat. rewrite start_cons, start_0. lra.
  - apply Rltb_ge in E. destruct l as [|b l'].
    + exists 0%nat. simpl. rewrite start_0. split; [f_equal; [lia|lra]|].
      split; [simpl; lia|]. split; auto.
    + set (l := b :: l') in *.
      destruct (IH (i + 1)%Z (off + s_duration s) ltac:(discriminate) Hp') as (n & En & A & B & D).
      exists (S n). rewrite En, start_cons. split; [f_equal; [lia|lra]|].
      split; [simpl in *; lia|]. split.
      * right. rewrite start_cons. destruct B as [->|B]; [rewrite start_0; lra|lra].
      * destruct D as [D|D]; [left|right; simpl in *; lia].
        simpl (S n + 1)%nat. rewrite start_cons. lra.
Qed.

Lemma active_index_spec c t off : c_splines c <> [] -> positive_durations (c_splines c) ->
  exists n, active_index_at c t off = (Z.of_nat n, start (c_splines c) n) /\ in_charge (c_splines c) n t.
Proof.
  intros Hl Hp. unfold active_index_at.
  destruct (active_loop_spec t (c_splines c) 0%Z #0%num Hl Hp) as (n & E & Hn). numR.
  rewrite Rplus_0_l in E. rewrite Rminus_0_r in Hn. exists n. split; [|exact Hn].
  destruct (c_splines c); [congruence|exact E].
Qed.

Lemma active_index_charge c t off n : positive_durations (c_splines c) -> in_charge (c_splines c) n t ->
  active_index_at c t off = (Z.of_nat n, start (c_splines c) n).
Proof.
  intros Hp Hn. assert (Hl : c_splines c <> []).
  { intros E. destruct Hn as [Hn _]. rewrite E in Hn. simpl in Hn. lia. }
  destruct (active_index_spec c t off Hl Hp) as (m & E & Hm).
  now rewrite (in_charge_unique _ _ _ _ Hp Hn Hm).
Qed.

Lemma spline_at_ok c n s : nth_error (c_splines c) n = Some s -> spline_at c (Z.of_nat n) = Ok s.
Proof.
  intros E. unfold spline_at. destruct (Z.ltb_spec (Z.of_nat n) 0); [lia|].
  now rewrite Nat2Z.id, E.
Qed.

Lemma spline_back_ok c s : nth_error (c_splines c) (length (c_splines c) - 1) = Some s -> spline_back c = Ok s.
Proof.
  intros E. unfold spline_back. destruct (c_splines c) as [|a l] using rev_ind; [discriminate|].
  clear IHl. rewrite rev_app_distr. simpl. rewrite app_length in E. simpl in E.
  replace (length l + 1 - 1)%nat with (length l) in E by lia.
  rewrite nth_error_app2, Nat.sub_diag in E by lia. simpl in E. now injection E as ->.
Qed.

Lemma get_at_charge f c t n s : positive_durations (c_splines c) -> countable_splines (c_splines c) ->
  in_charge (c_splines c) n t -> nth_error (c_splines c) n = Some s ->
  get_at f c t = Ok (f s (t - start (c_splines c) n)).
Proof.
  intros Hp Hc Hn En. unfold get_at. rewrite (active_index_charge c t _ n Hp Hn).
  destruct Hn as [Hn _]. unfold countable_splines in Hc.
  destruct (Z.ltb_spec (Z.of_nat n) 0); [lia|].
  rewrite Z.mod_small by lia. unfold c_size.
  destruct (Z.eqb_spec (Z.of_nat n) (Z.of_nat (length (c_splines c)))); [lia|].
  now rewrite (spline_at_ok _ _ _ En).
Qed.

Lemma get_at_empty f c t : c_splines c = [] -> get_at f c t = Ok 0.
Proof. intros E. unfold get_at, active_index_at. rewrite E. reflexivity. Qed.

Lemma get_end_last f c s : nth_error (c_splines c) (length (c_splines c) - 1) = Some s ->
  get_end f c = Ok (f s (s_duration s)).
Proof.
  intros E. unfold get_end, c_size.
  destruct (Z.eqb_spec (Z.of_nat (length (c_splines c))) 0) as [Z|Z].
  - destruct (c_splines c); [discriminate|simpl in Z; lia].
  - now rewrite (spline_back_ok _ _ E).
Qed.

Lemma last_charge l t : l <> [] -> start l (length l - 1) <= t \/ (length l = 1)%nat -> in_charge l (length l - 1) t.
Proof.
  intros Hl Ht. assert (length l <> 0%nat) by (destruct l; simpl; congruence).
  split; [lia|]. split; [|right; lia].
  destruct Ht as [Ht|Ht]; [right; exact Ht|left; lia].
Qed.

(** ** Memory safety *)

Definition index_ok c : Prop := (0 <= c_active c <= c_size c)%Z.

Lemma active_loop_range l : forall i off t, l <> [] ->
  (i <= fst (active_loop l i off t) < i + Z.of_nat (length l))%Z.
Proof.
  induction l as [|s l IH]; intros i off t Hl; [congruence|].
  cbn [active_loop]. match goal with |- context [if ?b then _ else _] => destruct b end; [simpl; lia|].
  destruct l as [|b l']; [simpl; lia|].
  specialize (IH (i + 1)%Z (nadd off (s_duration s)) t ltac:(discriminate)).
  cbn [length] in *. lia.
Qed.

Lemma spline_at_total c : (0 <= c_active c < c_size c)%Z -> exists s, spline_at c (c_active c) = Ok s.
Proof.
  intros Hi. unfold spline_at, c_size in *. destruct (Z.ltb_spec (c_active c) 0); [lia|].
  destruct (nth_error (c_splines c) (Z.to_nat (c_active c))) as [s|] eqn:E; [eauto|].
  apply nth_error_None in E. lia.
Qed.

Lemma spline_back_total c : c_size c <> 0%Z -> exists s, spline_back c = Ok s.
Proof.
  intros Hs. unfold c_size in Hs. unfold spline_back.
  destruct (c_splines c) as [|a l] using rev_ind; [simpl in Hs; lia|].
  rewrite rev_app_distr. simpl. eauto.
Qed.

Lemma get_now_total f c : index_ok c -> countable_splines (c_splines c) -> exists x, get_now f c = Ok x.
Proof.
  intros Hi Hc. unfold get_now, index_ok, countable_splines in *. fold (c_size c) in Hc.
  destruct (Z.eqb_spec (c_size c) 0); [eauto|].
  unfold to_size_t. rewrite Z.mod_small by lia.
  destruct (Z.eqb_spec (c_active c) (c_size c)).
  - destruct (spline_back_total c n) as [s ->]. simpl. eauto.
  - destruct (spline_at_total c ltac:(lia)) as [s ->]. simpl. eauto.
Qed.

Lemma get_at_total f c t : countable_splines (c_splines c) -> exists x, get_at f c t = Ok x.
Proof.
  intros Hc. unfold get_at, active_index_at, countable_splines in *.
  destruct (c_splines c) as [|a l] eqn:El; [simpl; eauto|]. rewrite <- El in *.
  assert (Hl : c_splines c <> []) by congruence.
  pose proof (active_loop_range (c_splines c) 0%Z #0%num t Hl) as Hr.
  destruct (active_loop (c_splines c) 0%Z #0%num t) as [i off]. simpl in Hr.
  destruct (Z.ltb_spec i 0); [lia|]. rewrite Z.mod_small by lia.
  unfold c_size. destruct (Z.eqb_spec i (Z.of_nat (length (c_splines c)))); [lia|].
  unfold spline_at. destruct (Z.ltb_spec i 0); [lia|].
  destruct (nth_error (c_splines c) (Z.to_nat i)) as [s|] eqn:E; [simpl; eauto|].
  apply nth_error_None in E. lia.
Qed.

Lemma get_end_total f c : exists x, get_end f c = Ok x.
Proof.
  unfold get_end. destruct (Z.eqb_spec (c_size c) 0); [eauto|].
  destruct (spline_back_total c n) as [s ->]. simpl. eauto.
Qed.

Lemma advance_total c dt : index_ok c -> countable_splines (c_splines c) ->
  exists b c', advance c dt = Ok (b, c') /\ index_ok c' /\ c_splines c' = c_splines c.
Proof.
  intros Hi Hc. unfold advance, index_ok, countable_splines in *. fold (c_size c) in Hc.
  unfold to_size_t. rewrite Z.mod_small by lia.
  destruct ((c_size c =? 0)%Z || nleb (c_duration c) (c_time c)); simpl orb; [eauto|].
  destruct (Z.eqb_spec (c_active c) (c_size c)) as [E|E]; [eauto|].
  destruct (spline_at_total c ltac:(lia)) as [s ->]. cbn [bind].
  match goal with |- context [if ?b then Ok _ else Ok _] => destruct b end;
    eexists _, _; (split; [reflexivity|]); unfold c_size in *; cbn [c_splines c_active];
    (split; [lia|reflexivity]).
Qed.

Lemma set_time_index c t : c_splines c <> [] ->
  index_ok (set_container_time c t) /\ c_splines (set_container_time c t) = c_splines c.
Proof.
  intros Hl. unfold set_container_time, active_index_at, index_ok, c_size.
  pose proof (active_loop_range (c_splines c) 0%Z #0%num t Hl) as Hr.
  destruct (c_splines c) as [|a l0] eqn:El; [congruence|]. rewrite <- El in *.
  destruct (active_loop (c_splines c) 0%Z #0%num t) as [i off]. simpl in *. split; [lia|reflexivity].
Qed.

Lemma exec_ops_safe o ops : forall c, index_ok c ->
  (c_size c + Z.of_nat (length ops) < 2 ^ 31)%Z ->
  times_set_ok (c_splines c) ops ->
  exists c', exec_ops o c ops = Ok c' /\ index_ok c' /\ c_splines c' = splines_after (c_splines c) ops.
Proof.
  induction ops as [|op ops IH]; intros c Hi Hn Ht.
  { exists c. simpl. auto. }
  cbn [length] in Hn. unfold exec_ops. cbn [foldM].
  assert (Hc : countable_splines (c_splines c)) by (unfold countable_splines; fold (c_size c); lia).
  destruct op as [s|dt|t| | |t]; simpl in Ht |- *.
  - apply (IH (add_spline c s)); auto; unfold index_ok, c_size in *; simpl; rewrite app_length; simpl; lia.
  - destruct (advance_total c dt Hi Hc) as (b & c' & -> & Hi' & E). simpl. rewrite <- E.
    apply IH; auto; unfold c_size in *; rewrite E; auto. lia.
  - destruct Ht as [Hl Ht].
    destruct (set_time_index c t Hl) as [Hi' E]. rewrite <- E in *.
    apply IH; auto; unfold c_size in *; rewrite E in *; auto. lia.
  - apply (IH (reset c)); auto; unfold index_ok, c_size in *; simpl; lia.
  - apply (IH (reset_time c)); auto; unfold index_ok, c_size in *; simpl; lia.
  - unfold get_position, get_velocity, get_acceleration, get_position_at_time, get_velocity_at_time,
      get_acceleration_at_time, get_end_position, get_end_velocity, get_end_acceleration.
    repeat match goal with
    | |- context [get_now ?f c] => destruct (get_now_total f c Hi Hc) as [? ->]; simpl
    | |- context [get_at ?f c t] => destruct (get_at_total f c t Hc) as [? ->]; simpl
    | |- context [get_end ?f c] => destruct (get_end_total f c) as [? ->]; simpl
    end.
    apply IH; auto. lia.
Qed.

(** ** Stepping *)

(** A container in the middle of stepping. *)
Definition stepping c : Prop :=
  let l := c_splines c in
  c_duration c = total l /\
  ((exists n, (n < length l)%nat /\ c_active c = Z.of_nat n /\ c_offset c = start l n /\
     (n = 0%nat \/ start l n <= c_time c) /\ c_time c < start l (n + 1)) \/
   ((c_active c = c_size c \/ c_active c = c_size c - 1)%Z /\ l <> [] /\ c_offset c = start l (length l - 1) /\ total l <= c_time c)).

Lemma stepping_agrees f c : positive_durations (c_splines c) -> countable_splines (c_splines c) ->
  stepping c -> get_now f c = get_at f c (c_time c).
Proof.
  intros Hp Hc [Hd [(n & Hn & Ha & Ho & Ht)|(Ha & Hl & Ho & Ht)]].
  - assert (En : exists s, nth_error (c_splines c) n = Some s).
    { destruct (nth_error (c_splines c) n) eqn:E; eauto. apply nth_error_None in E. lia. }
    destruct En as [s En].
    assert (Hch : in_charge (c_splines c) n (c_time c)) by (split; [lia|]; split; [tauto|left; lra]).
    rewrite (get_at_charge f c _ n s Hp Hc Hch En).
    unfold get_now, c_size. unfold countable_splines in Hc.
    destruct (Z.eqb_spec (Z.of_nat (length (c_splines c))) 0); [lia|].
    rewrite Ha. unfold to_size_t. rewrite Z.mod_small by lia.
    destruct (Z.eqb_spec (Z.of_nat n) (Z.of_nat (length (c_splines c)))); [lia|].
    rewrite (spline_at_ok _ _ _ En). simpl. rewrite Ho. reflexivity.
  - assert (Hlen : length (c_splines c) <> 0%nat) by (destruct (c_splines c); simpl; congruence).
    assert (En : exists s, nth_error (c_splines c) (length (c_splines c) - 1) = Some s).
    { destruct (nth_error (c_splines c) (length (c_splines c) - 1)) eqn:E; eauto. apply nth_error_None in E. lia. }
    destruct En as [s En].
    pose proof (start_mono_le (c_splines c) (length (c_splines c) - 1) (length (c_splines c)) Hp ltac:(lia)) as Hm.
    rewrite (start_all _ (length (c_splines c))) in Hm by lia.
    assert (Hch : in_charge (c_splines c) (length (c_splines c) - 1) (c_time c))
      by (apply last_charge; auto; left; lra).
    rewrite (get_at_charge f c _ _ s Hp Hc Hch En).
    unfold get_now, c_size in *. unfold countable_splines in Hc.
    destruct (Z.eqb_spec (Z.of_nat (length (c_splines c))) 0); [lia|].
    destruct Ha as [Ha|Ha]; rewrite Ha; unfold to_size_t; rewrite Z.mod_small by lia.
    + rewrite Z.eqb_refl. rewrite (spline_back_ok _ _ En). simpl. rewrite Ho. reflexivity.
    + destruct (Z.eqb_spec (Z.of_nat (length (c_splines c)) - 1) (Z.of_nat (length (c_splines c)))); [lia|].
      replace (Z.of_nat (length (c_splines c)) - 1)%Z with (Z.of_nat (length (c_splines c) - 1)) by lia.
      rewrite (spline_at_ok _ _ _ En). simpl. rewrite Ho. reflexivity.
Qed.

Lemma advance_stepping c dt : positive_durations (c_splines c) -> countable_splines (c_splines c) ->
  stepping c -> 0 <= dt -> Forall (fun s => dt <= s_duration s) (c_splines c) ->
  exists b c', advance c dt = Ok (b, c') /\ stepping c' /\ c_splines c' = c_splines c /\
    c_time c' = (if b then c_time c + dt else c_time c) /\
    (b = true <-> c_time c < total (c_splines c)).
Proof.
  intros Hp Hc Hst Hdt Hmax. pose proof Hst as [Hd [(n & Hn & Ha & Ho & Ht)|(Ha & Hl & Ho & Ht)]].
  - assert (En : exists s, nth_error (c_splines c) n = Some s).
    { destruct (nth_error (c_splines c) n) eqn:E; eauto. apply nth_error_None in E. lia. }
    destruct En as [s En].
    pose proof (start_S' _ _ _ En) as ES.
    pose proof (start_mono_le (c_splines c) (n + 1) (length (c_splines c)) Hp ltac:(lia)) as Htot.
    rewrite (start_all _ (length (c_splines c))) in Htot by lia.
    unfold advance, c_size. unfold countable_splines in Hc.
    destruct (Z.eqb_spec (Z.of_nat (length (c_splines c))) 0); [lia|]. simpl orb. numR.
    rewrite (proj2 (Rleb_gt _ _)) by lra. simpl orb.
    rewrite Ha. unfold to_size_t. rewrite !Z.mod_small by lia.
    destruct (Z.eqb_spec (Z.of_nat n) (Z.of_nat (length (c_splines c)))); [lia|].
    rewrite (spline_at_ok _ _ _ En). simpl bind.
    destruct (negb (Rltb (c_time c + dt - c_offset c) (s_duration s))) eqn:E.
    2: { apply Rleb_gt in E. eexists _, _. split; [reflexivity|]. simpl.
      split; [|split; [reflexivity|]; split; [reflexivity|]; split; intros; [lra|reflexivity]].
      split; [exact Hd|]. left. exists n. simpl. repeat split; auto; destruct Ht as [[->|Ht] Ht']; auto; try (right; lra); try lra. }
    apply Rleb_le in E. eexists _, _. split; [reflexivity|]. simpl.
      split; [|split; [reflexivity|]; split; [reflexivity|]; split; intros; [lra|reflexivity]].
      split; [exact Hd|]. simpl.
      destruct (Z.ltb_spec (Z.of_nat n) (Z.of_nat (length (c_splines c)) - 1)) as [Hlt|Hge].
      * left. exists (n + 1)%nat. split; [lia|]. split; [lia|]. split; [lra|]. split; [right; lra|].
        assert (En' : exists s', nth_error (c_splines c) (n + 1) = Some s').
        { destruct (nth_error (c_splines c) (n + 1)) eqn:E'; eauto. apply nth_error_None in E'. lia. }
        destruct En' as [s' En']. rewrite (start_S' _ _ _ En').
        rewrite Forall_forall in Hmax. pose proof (Hmax s' (nth_error_In _ _ En')). lra.
      * right. unfold c_size. simpl. split; [lia|].
        split; [intros E0; rewrite E0 in Hn; simpl in Hn; lia|].
        replace (length (c_splines c) - 1)%nat with n by lia.
        split; [exact Ho|]. rewrite (start_all _ (n + 1)) in ES by lia. lra.
  - exists false, c. assert (Ea : advance c dt = Ok (false, c)).
    { unfold advance. numR. rewrite (proj2 (Rleb_le (c_duration c) (c_time c))) by lra.
      rewrite orb_true_r. reflexivity. }
    split; [exact Ea|]. split; [exact Hst|]. split; [reflexivity|]. split; [reflexivity|].
    split; intros; [discriminate|lra].
Qed.

Lemma advance_all_stepping dts : forall c, positive_durations (c_splines c) -> countable_splines (c_splines c) ->
  stepping c -> Forall (fun dt => 0 <= dt /\ Forall (fun s => dt <= s_duration s) (c_splines c)) dts ->
  exists c', advance_all c dts = Ok c' /\ stepping c' /\ c_splines c' = c_splines c.
Proof.
  induction dts as [|dt dts IH]; intros c Hp Hc Hst Hall.
  { exists c. simpl. auto. }
  inversion Hall as [|? ? [H1 H2] Hrest]; subst.
  destruct (advance_stepping c dt Hp Hc Hst H1 H2) as (b & c1 & E & Hst1 & El & _).
  unfold advance_all. simpl. rewrite E. simpl. rewrite <- El in *.
  destruct (IH c1 Hp Hc Hst1 Hrest) as (c' & E' & Hst' & El'). exists c'. auto.
Qed.

Lemma stepping_initial c : c_duration c = total (c_splines c) -> c_splines c <> [] ->
  positive_durations (c_splines c) ->
  c_time c = 0 -> c_offset c = 0 -> c_active c = 0%Z -> stepping c.
Proof.
  intros Hd Hl Hp Ht Ho Ha. split; [exact Hd|]. left. exists 0%nat.
  destruct (c_splines c) as [|s l] eqn:El; [congruence|].
  split; [simpl; lia|]. split; [exact Ha|]. split; [exact Ho|].
  rewrite start_0. simpl (0 + 1)%nat. rewrite start_cons, start_0. inversion Hp; subst. lra.
Qed.

(** ** Duration *)

Lemma total_app l l' : total (l ++ l') = total l + total l'.
Proof.
  unfold total. induction l as [|a l IH]; simpl; [lra|]. unfold total in IH. rewrite IH. lra.
Qed.

Lemma total_snoc l s : total (l ++ [s]) = total l + s_duration s.
Proof. rewrite total_app. unfold total at 2. simpl. lra. Qed.

Lemma exec_op_duration o c op c' : exec_op o c op = Ok c' -> c_duration c = total (c_splines c) ->
  c_duration c' = total (c_splines c').
Proof.
  intros E Hd. destruct op as [s|dt|t| | |t]; simpl in E.
  - injection E as <-. simpl. numR. rewrite Hd, total_snoc. reflexivity.
  - apply bind_ok_inv in E as ([b c1] & E & E1). injection E1 as <-.
    unfold advance in E. destruct (_ || _); [injection E as _ <-; exact Hd|].
    apply bind_ok_inv in E as (s & _ & E). destruct (nleb _ _); injection E as _ <-; exact Hd.
  - injection E as <-. unfold set_container_time. destruct (active_index_at c t (c_offset c)). exact Hd.
  - injection E as <-. reflexivity.
  - injection E as <-. exact Hd.
  - repeat (apply bind_ok_inv in E as (? & _ & E)). injection E as <-. exact Hd.
Qed.

Lemma exec_ops_duration o ops : forall c c', exec_ops o c ops = Ok c' -> c_duration c = total (c_splines c) ->
  c_duration c' = total (c_splines c').
Proof.
  induction ops as [|op ops IH]; intros c c' E Hd.
  - injection E as <-. exact Hd.
  - unfold exec_ops in E. cbn [foldM] in E. apply bind_ok_inv in E as (c1 & E1 & E).
    apply (IH c1 c' E). eapply exec_op_duration; eauto.
Qed.
