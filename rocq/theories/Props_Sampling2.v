(** * C15 and C17 (defaults), C79: changing the sampling settings and clearing between measurements,
    C80: lists of different length *)

From Coq Require Import List Bool Arith NArith ZArith Lia Permutation Sorting.Sorted.
From Verif Require Import Base TimeOrder TimeInst KeyGen Manager ManagerSpec ManagerProofs
  ManagerProofs2 ManagerProofs3 Sampling SamplingSpec SamplingProofs Props_Sampling.
Import ListNotations.

Section Slerp.
Context {T V : Type} `{TimeLaws T}.
Local Notation curve := (slerp_curve T V).

(** A new curve, whose sampling ratio nobody set, keeps every measurement. *)
Theorem C15_default_ratio : forall (ms : list (T * V)) (g : N) (out : list N),
  increasing ms -> (g + N.of_nat (length ms) < 2 ^ 64)%N ->
  exists g' c' out', slerp_feed g slerp_new ms out = Ok (g', c', out') /\ consistent (s_mgr c') /\
    contents (s_mgr c') = ms.
Proof.
  intros ms g out Hinc Hg.
  destruct (slerp_feed_spec g (@slerp_new T _ V) 1 out ms) as (g' & c' & out' & E & Hs & _ & _ & _ & Ec); auto.
  { unfold int_max. lia. } { apply sane_new. }
  exists g', c', out'. split; [exact E|]. split; [apply Hs|]. rewrite Ec. clear.
  assert (X : forall l : list (T * V), select (fun _ => true) l = l).
  { induction l as [|x l IH] using rev_ind; [reflexivity|]. now rewrite select_snoc, IH. }
  transitivity (select (fun _ => true) ms); [|apply X]. apply select_ext. intros i _. unfold slerp_kept, slerp_permanent.
  change (Z.to_nat 1) with 1. rewrite Nat.mod_1_r. simpl. now rewrite orb_true_r.
Qed.

(** One measurement on a curve with two or more coefficients. *)
Lemma more_step g (c : curve) n q l y x out :
  sane g (s_mgr c) -> (g + 1 < key_mod)%N -> contents (s_mgr c) = l ++ [y] -> l <> [] ->
  p_min (s_pol c) = n -> n <> 1%Z -> p_count (s_pol c) = q -> (0 <= q < int_max)%Z -> tlt (fst y) (fst x) = true ->
  exists g' c' out', slerp_extend g c [fst x] [snd x] out = Ok (g', c', out') /\
    sane g' (s_mgr c') /\ (g <= g' <= g + 1)%N /\ p_min (s_pol c') = n /\
    p_count (s_pol c') = (if (q + 1 =? n)%Z then 0 else q + 1)%Z /\
    contents (s_mgr c') = (if (q =? 0)%Z then l ++ [y] else l) ++ [x].
Proof.
  intros Hs Hg Ec Hl Hn Hn1 Hq Hb Ht. destruct y as [ty vy], x as [tx vx]. cbn [fst snd] in *.
  pose proof (contents_max _ _ _ _ Ec) as Em.
  assert (Eb : empty (s_mgr c) || (size (s_mgr c) =? 1) = false).
  { rewrite contents_empty, contents_size, Ec. destruct l as [|a l]; [congruence|]. cbn [app length].
    rewrite app_length. cbn [length orb]. apply Nat.eqb_neq. lia. }
  unfold slerp_extend. cbn [length Nat.eqb negb]. rewrite Eb. unfold slerp_extend_one. rewrite Hn.
  destruct (Z.eqb_spec n 1) as [|_]; [congruence|]. unfold count_up. rewrite Hq.
  destruct (Z.eqb_spec q int_max) as [X|_]; [lia|]. cbn [bind p_count p_min]. rewrite Hn.
  destruct (Z.eqb_spec q 0) as [E0|E0].
  - rewrite E0. cbn [Z.add]. rewrite Z.eqb_refl.
    destruct (end_add g (s_mgr c) tx vx out Hs Hg) as (m' & -> & Hs' & Ec').
    { rewrite Ec. now destruct l. } { now rewrite Em. }
    cbn [bind]. do 3 eexists. split; [reflexivity|]. cbn [s_mgr s_pol]. split; [exact Hs'|]. split; [lia|].
    rewrite Ec', Ec. destruct (Z.eqb_spec 1 n); cbn [set_count p_min p_count]; repeat split; auto.
  - destruct (Z.eqb_spec (q + 1) 1) as [X|_]; [lia|].
    destruct (contents_last _ _ _ _ Ec) as (nd & El & _). rewrite El.
    destruct (end_move g (s_mgr c) l ty vy tx vx nd Hs Ec El Ht) as (m' & -> & Hs' & Ec').
    cbn [bind]. do 3 eexists. split; [reflexivity|]. cbn [s_mgr s_pol]. split; [exact Hs'|]. split; [lia|].
    rewrite Ec'. destruct (Z.eqb_spec (q + 1) n); cbn [set_count p_min p_count]; auto.
Qed.

(** The last of [y] followed by [ms]. *)
Lemma last_increasing (l ms : list (T * V)) y x :
  increasing (l ++ y :: ms ++ [x]) -> exists z r, y :: ms = r ++ [z] /\ tlt (fst z) (fst x) = true.
Proof.
  intros Hi. apply increasing_suffix in Hi. destruct (@exists_last _ (y :: ms)) as (r & z & E); [discriminate|].
  exists z, r. split; [exact E|]. rewrite app_comm_cons, E, <- app_assoc in Hi. cbn [app] in Hi.
  now apply increasing_snoc in Hi.
Qed.

(** What is on the curve after [ms] more measurements, [q] having been counted before. *)
Definition after_more (l : list (T * V)) (y : T * V) (n q : nat) (ms : list (T * V)) : list (T * V) :=
  match ms with
  | [] => l ++ [y]
  | _ => (if q =? 0 then l ++ [y] else l) ++
         select (fun i => ((q + i + 1) mod n =? 0) || (i =? length ms - 1)) ms
  end.

Lemma after_snoc l y n q ms x : 1 <= n -> q < n ->
  exists l' y', after_more l y n q ms = l' ++ [y'] /\
    (ms = [] -> y' = y /\ l' = l) /\ (forall r z, ms = r ++ [z] -> y' = z) /\
    after_more l y n q (ms ++ [x]) = (if (q + length ms) mod n =? 0 then l' ++ [y'] else l') ++ [x].
Proof.
  intros Hn Hq. destruct ms as [|z ms _] using rev_ind.
  - exists l, y. cbn [length]. rewrite Nat.add_0_r, (Nat.mod_small q n) by lia.
    split; [reflexivity|]. split; [auto|]. split; [intros r z E; now apply app_cons_not_nil in E|].
    cbn [app after_more length]. f_equal. change [x] with ([] ++ [x]) at 1. rewrite select_snoc.
    cbn [length Nat.sub Nat.eqb]. now rewrite orb_true_r.
  - assert (Hx : forall (u : list (T * V)) w, after_more l y n q (u ++ [w]) =
      ((if q =? 0 then l ++ [y] else l) ++ select (fun i => (q + i + 1) mod n =? 0) u) ++ [w]).
    { intros u w. unfold after_more. destruct (u ++ [w]) as [|a b] eqn:E; [symmetry in E; now apply app_cons_not_nil in E|].
      rewrite <- E, select_snoc, app_length. cbn [length]. replace (length u + 1 - 1) with (length u) by lia.
      rewrite Nat.eqb_refl, orb_true_r, app_assoc. f_equal. f_equal. apply select_ext.
      intros i Hi. destruct (Nat.eqb_spec i (length u)); [lia|]. now rewrite orb_false_r. }
    rewrite !Hx. eexists _, z. split; [reflexivity|]. split; [intros E; symmetry in E; now apply app_cons_not_nil in E|].
    split; [intros r z' E; now apply app_inj_tail in E|]. rewrite select_snoc, app_length. cbn [length].
    replace (q + length ms + 1) with (q + (length ms + 1)) by lia.
    destruct ((q + (length ms + 1)) mod n =? 0); [now rewrite app_assoc|now rewrite app_nil_r].
Qed.

Lemma more_feed g (c : curve) n q l y out : forall ms,
  sane g (s_mgr c) -> (g + N.of_nat (length ms) < key_mod)%N -> contents (s_mgr c) = l ++ [y] -> l <> [] ->
  p_min (s_pol c) = Z.of_nat n -> 2 <= n -> (Z.of_nat n <= int_max)%Z -> p_count (s_pol c) = Z.of_nat q -> q < n ->
  increasing (l ++ y :: ms) ->
  exists g' c' out', slerp_feed g c ms out = Ok (g', c', out') /\
    sane g' (s_mgr c') /\ (g <= g' <= g + N.of_nat (length ms))%N /\ p_min (s_pol c') = Z.of_nat n /\
    p_count (s_pol c') = Z.of_nat ((q + length ms) mod n) /\
    contents (s_mgr c') = after_more l y n q ms.
Proof.
  induction ms as [|x ms IH] using rev_ind; intros Hs Hg Ec Hl Hmin Hn Hm Hq Hlt Hinc.
  - do 3 eexists. split; [reflexivity|]. split; [exact Hs|]. split; [lia|]. split; [exact Hmin|].
    cbn [length]. rewrite Nat.add_0_r, Nat.mod_small by exact Hlt. auto.
  - rewrite app_length in *. cbn [length] in *.
    assert (Hinc0 : increasing (l ++ y :: ms)).
    { rewrite app_comm_cons, app_assoc in Hinc. now apply increasing_prefix in Hinc. }
    destruct IH as (g1 & c1 & out1 & E1 & Hs1 & Hg1 & Hm1 & Hp1 & Hc1); auto; [lia|].
    destruct (after_snoc l y n q ms x) as (l' & y' & Ea & Enil & Elast & Ex); [lia|exact Hlt|].
    rewrite Ea in Hc1. rewrite Ex. pose proof (Nat.mod_upper_bound (q + length ms) n ltac:(lia)) as Hu.
    destruct (more_step g1 c1 (Z.of_nat n) (Z.of_nat ((q + length ms) mod n)) l' y' x out1)
      as (g2 & c2 & out2 & E2 & Hs2 & Hg2 & Hm2 & Hp2 & Hc2); auto; try lia.
    + (* two coefficients remain *)
      destruct ms as [|z ms' _] using rev_ind; [destruct (Enil eq_refl) as [_ ->]; exact Hl|].
      intros ->. revert Ea. unfold after_more. destruct (ms' ++ [z]) as [|a b] eqn:Em; [symmetry in Em; now apply app_cons_not_nil in Em|].
      rewrite <- Em, select_snoc, app_length. cbn [length]. replace (length ms' + 1 - 1) with (length ms') by lia.
      rewrite Nat.eqb_refl, orb_true_r. intros Ea. apply (f_equal (@length _)) in Ea. rewrite !app_length in Ea. cbn [length] in Ea.
      destruct l as [|a0 l]; [congruence|]. destruct (q =? 0); [rewrite app_length in Ea|]; cbn [length] in Ea; lia.
    + destruct (last_increasing _ _ _ _ Hinc) as (z & r & Er & Hz).
      destruct ms as [|w ms' _] using rev_ind.
      * destruct (Enil eq_refl) as [-> _]. destruct r as [|? [|? ?]]; try discriminate. injection Er as ->. exact Hz.
      * rewrite (Elast ms' w eq_refl). rewrite app_comm_cons in Er. apply app_inj_tail in Er as [_ ->]. exact Hz.
    + exists g2, c2, out2. split.
      { unfold slerp_feed in *. rewrite foldM_app, E1. cbn [bind foldM]. cbn beta iota. now rewrite E2. }
      split; [exact Hs2|]. split; [lia|]. split; [exact Hm2|]. split.
      * rewrite Hp2. replace (q + (length ms + 1)) with (S (q + length ms)) by lia.
        set (a := q + length ms) in *. pose proof (Nat.div_mod a n ltac:(lia)) as Ed.
        destruct (Z.eqb_spec (Z.of_nat (a mod n) + 1) (Z.of_nat n)) as [X|X].
        -- replace (S a) with ((a / n + 1) * n) by nia. rewrite Nat.mod_mul by lia. reflexivity.
        -- replace (S a mod n) with (S (a mod n)); [lia|].
           replace (S a) with (S (a mod n) + (a / n) * n) by lia. rewrite Nat.mod_add by lia.
           symmetry. apply Nat.mod_small. lia.
      * rewrite Hc2. f_equal. destruct (Nat.eqb_spec ((q + length ms) mod n) 0) as [X|X].
        -- rewrite X. reflexivity.
        -- destruct (Z.eqb_spec (Z.of_nat ((q + length ms) mod n)) 0); [lia|reflexivity].
Qed.

(** If the counter is not below the ratio, it will never be equal to it. *)
Lemma stuck_feed g (c : curve) n q l y out : forall ms,
  sane g (s_mgr c) -> (g + N.of_nat (length ms) < key_mod)%N -> contents (s_mgr c) = l ++ [y] -> l <> [] ->
  p_min (s_pol c) = n -> n <> 1%Z -> p_count (s_pol c) = q -> (1 <= q)%Z -> (n <= q)%Z ->
  (q + Z.of_nat (length ms) <= int_max)%Z -> increasing (l ++ y :: ms) ->
  exists c', slerp_feed g c ms out = Ok (g, c', out) /\ sane g (s_mgr c') /\
    p_min (s_pol c') = n /\ p_count (s_pol c') = (q + Z.of_nat (length ms))%Z /\
    contents (s_mgr c') = l ++ [last ms y].
Proof.
  induction ms as [|x ms IH] using rev_ind; intros Hs Hg Ec Hl Hmin Hn1 Hq Hq1 Hnq Hcap Hinc.
  - exists c. split; [reflexivity|]. split; [exact Hs|]. split; [exact Hmin|]. cbn [length last]. split; [lia|exact Ec].
  - rewrite app_length in *. cbn [length] in *.
    assert (Hinc0 : increasing (l ++ y :: ms)).
    { rewrite app_comm_cons, app_assoc in Hinc. now apply increasing_prefix in Hinc. }
    destruct IH as (c1 & E1 & Hs1 & Hm1 & Hp1 & Hc1); auto; [lia|lia|].
    destruct (last_increasing _ _ _ _ Hinc) as (z & r & Er & Hz).
    assert (Ez : last ms y = z).
    { destruct ms as [|w ms' _] using rev_ind.
      - destruct r as [|? [|? ?]]; try discriminate. now injection Er as ->.
      - rewrite app_comm_cons in Er. apply app_inj_tail in Er as [_ ->]. now rewrite last_last. }
    rewrite Ez in Hc1. destruct z as [tz vz], x as [tx vx]. cbn [fst] in Hz.
    pose proof (contents_max _ _ _ _ Hc1) as Em.
    assert (E2 : exists c2, slerp_extend g c1 [tx] [vx] out = Ok (g, c2, out) /\ sane g (s_mgr c2) /\
      p_min (s_pol c2) = n /\ p_count (s_pol c2) = (q + Z.of_nat (length ms) + 1)%Z /\ contents (s_mgr c2) = l ++ [(tx, vx)]).
    { unfold slerp_extend. cbn [length Nat.eqb negb].
      assert (Eb : empty (s_mgr c1) || (size (s_mgr c1) =? 1) = false).
      { rewrite contents_empty, contents_size, Hc1. destruct l as [|a l]; [congruence|]. cbn [app length].
        rewrite app_length. cbn [length orb]. apply Nat.eqb_neq. lia. }
      rewrite Eb. unfold slerp_extend_one. rewrite Hm1. destruct (Z.eqb_spec n 1) as [|_]; [congruence|].
      unfold count_up. rewrite Hp1. destruct (Z.eqb_spec (q + Z.of_nat (length ms)) int_max) as [X|_]; [lia|].
      cbn [bind p_count p_min]. destruct (Z.eqb_spec (q + Z.of_nat (length ms) + 1) 1) as [X|_]; [lia|].
      destruct (contents_last _ _ _ _ Hc1) as (nd & El & _). rewrite El.
      destruct (end_move g (s_mgr c1) l tz vz tx vx nd Hs1 Hc1 El Hz) as (m' & -> & Hs' & Ec').
      cbn [bind]. rewrite Hm1. destruct (Z.eqb_spec (q + Z.of_nat (length ms) + 1) n) as [X|_]; [lia|].
      eexists. split; [reflexivity|]. cbn [s_mgr s_pol p_min p_count]. auto. }
    destruct E2 as (c2 & E2 & Hs2 & Hm2 & Hp2 & Hc2). exists c2. split.
    { unfold slerp_feed in *. rewrite foldM_app, E1. cbn [bind foldM fst snd]. cbn beta iota. now rewrite E2. }
    split; [exact Hs2|]. split; [exact Hm2|]. split; [lia|]. now rewrite last_last.
Qed.

(** The curve after [ms1] with ratio [n1]: the last measurement is on it, and
    (m1 - 2) mod n1 measurements are counted. *)
Lemma first_phase n1 (ms1 : list (T * V)) g out : 2 <= n1 -> (Z.of_nat n1 <= int_max)%Z -> 2 <= length ms1 ->
  increasing ms1 -> (g + N.of_nat (length ms1) < key_mod)%N ->
  exists g1 c1 out1 l y, slerp_feed g (slerp_set_ratio slerp_new (Z.of_nat n1)) ms1 out = Ok (g1, c1, out1) /\
    sane g1 (s_mgr c1) /\ (g <= g1 <= g + N.of_nat (length ms1))%N /\ contents (s_mgr c1) = l ++ [y] /\ l <> [] /\
    (exists r, ms1 = r ++ [y] /\ l = select (slerp_permanent n1) r) /\
    p_count (s_pol c1) = Z.of_nat ((length ms1 - 2) mod n1).
Proof.
  intros Hn Hm Hlen Hinc Hg.
  destruct (slerp_feed_spec g (slerp_set_ratio (@slerp_new T _ V) (Z.of_nat n1)) (Z.of_nat n1) out ms1)
    as (g1 & c1 & out1 & E & Hs & Hgg & _ & Hp & Ec); auto.
  { lia. } { apply sane_new. }
  rewrite Nat2Z.id in *.
  destruct ms1 as [|y r _] using rev_ind; [cbn in Hlen; lia|]. rewrite slerp_kept_snoc in Ec.
  exists g1, c1, out1, (select (slerp_permanent n1) r), y. split; [exact E|]. split; [exact Hs|]. split; [exact Hgg|].
  split; [exact Ec|]. split.
  { rewrite app_length in Hlen. cbn [length] in Hlen. intros X. apply (f_equal (@length _)) in X.
    rewrite slerp_permanent_count in X by lia. cbn [length] in X. lia. }
  split; [eauto|]. rewrite Hp. unfold slerp_count. destruct (Nat.eqb_spec n1 1); [lia|reflexivity].
Qed.

Lemma increasing_select (f : nat -> bool) (l : list (T * V)) : forall x ms,
  increasing (l ++ x :: ms) -> increasing (select f l ++ x :: ms).
Proof.
  induction l as [|y l IH] using rev_ind; intros x ms Hi; [exact Hi|].
  rewrite select_snoc, <- app_assoc in *. cbn [app] in *. destruct (f (length l)); cbn [app].
  - now apply IH.
  - apply IH. clear IH. induction l as [|a l IH]; cbn [app increasing] in *.
    + tauto.
    + destruct Hi as [A B]. split; [|apply IH; exact B]. destruct l as [|b l]; cbn [app] in *; [|exact A].
      destruct B as [B _]. eapply tlt_trans; eassumption.
Qed.

(** Changing the ratio does not restart counting.  After [m1] measurements with ratio [n1],
    q = (m1 - 2) mod n1 are counted.  If q is less than the new ratio [n2], the next
    measurement to stay is that which makes it n2 (and from then on every n2-th); the
    newest one from before is replaced, unless q is 0. *)
Theorem C79_ratio_changed : forall n1 n2 (ms1 ms2 : list (T * V)) l y (g : N) out,
  2 <= n1 -> 2 <= n2 -> (Z.of_nat n1 < 2 ^ 31)%Z -> (Z.of_nat n2 < 2 ^ 31)%Z ->
  ms1 = l ++ [y] -> l <> [] -> ms2 <> [] -> increasing (ms1 ++ ms2) ->
  (g + N.of_nat (length ms1 + length ms2) < 2 ^ 64)%N ->
  let q := (length ms1 - 2) mod n1 in q < n2 ->
  exists g1 c1 out1 g2 c2 out2,
    slerp_feed g (slerp_set_ratio slerp_new (Z.of_nat n1)) ms1 out = Ok (g1, c1, out1) /\
    slerp_feed g1 (slerp_set_ratio c1 (Z.of_nat n2)) ms2 out1 = Ok (g2, c2, out2) /\ consistent (s_mgr c2) /\
    contents (s_mgr c2) =
      (if q =? 0 then contents (s_mgr c1) else removelast (contents (s_mgr c1))) ++
      select (fun i => ((q + i + 1) mod n2 =? 0) || (i =? length ms2 - 1)) ms2.
Proof.
  intros n1 n2 ms1 ms2 l y g out Hn1 Hn2 Hm1 Hm2 E1 Hl Hne Hinc Hg q Hq.
  destruct (first_phase n1 ms1 g out) as (g1 & c1 & out1 & l1 & y1 & F1 & Hs1 & Hg1 & Ec1 & Hl1 & (r & Er & El1) & Hp1); auto.
  { unfold int_max. lia. } { rewrite E1, app_length. destruct l; [congruence|]. cbn [length]. lia. }
  { now apply increasing_prefix in Hinc. } { unfold key_mod. lia. }
  assert (Ery : r = l /\ y1 = y). { rewrite E1 in Er. apply app_inj_tail in Er as [-> ->]. auto. }
  destruct Ery as [-> ->].
  destruct (more_feed g1 (slerp_set_ratio c1 (Z.of_nat n2)) n2 q l1 y out1 ms2)
    as (g2 & c2 & out2 & F2 & Hs2 & _ & _ & _ & Ec2); auto.
  { unfold key_mod. lia. } { unfold int_max. lia. }
  { rewrite El1. apply increasing_select. rewrite E1, <- app_assoc in Hinc. exact Hinc. }
  exists g1, c1, out1, g2, c2, out2. split; [exact F1|]. split; [exact F2|]. split; [apply Hs2|].
  rewrite Ec2, Ec1, removelast_last. unfold after_more. now destruct ms2.
Qed.

(** If it is not less (and [n2] is not 1), no measurement stays any more: each replaces
    the one before, until the counter overflows. *)
Theorem C79_ratio_lowered : forall n1 n2 (ms1 ms2 : list (T * V)) l y l2 z (g : N) out,
  2 <= n1 -> 2 <= n2 -> (Z.of_nat n1 < 2 ^ 31)%Z ->
  ms1 = l ++ [y] -> l <> [] -> ms2 = l2 ++ [z] -> increasing (ms1 ++ ms2) ->
  (g + N.of_nat (length ms1 + length ms2) < 2 ^ 64)%N -> (Z.of_nat n1 + Z.of_nat (length ms2) <= 2 ^ 31)%Z ->
  n2 <= (length ms1 - 2) mod n1 ->
  exists g1 c1 out1 c2,
    slerp_feed g (slerp_set_ratio slerp_new (Z.of_nat n1)) ms1 out = Ok (g1, c1, out1) /\
    slerp_feed g1 (slerp_set_ratio c1 (Z.of_nat n2)) ms2 out1 = Ok (g1, c2, out1) /\ consistent (s_mgr c2) /\
    contents (s_mgr c2) = removelast (contents (s_mgr c1)) ++ [z].
Proof.
  intros n1 n2 ms1 ms2 l y l2 z g out Hn1 Hn2 Hm1 E1 Hl E2 Hinc Hg Hcap Hq.
  destruct (first_phase n1 ms1 g out) as (g1 & c1 & out1 & l1 & y1 & F1 & Hs1 & Hg1 & Ec1 & Hl1 & (r & Er & El1) & Hp1); auto.
  { unfold int_max. lia. } { rewrite E1, app_length. destruct l; [congruence|]. cbn [length]. lia. }
  { now apply increasing_prefix in Hinc. } { unfold key_mod. lia. }
  assert (Ery : r = l /\ y1 = y). { rewrite E1 in Er. apply app_inj_tail in Er as [-> ->]. auto. }
  destruct Ery as [-> ->].
  pose proof (Nat.mod_upper_bound (length ms1 - 2) n1 ltac:(lia)) as Hu.
  destruct (stuck_feed g1 (slerp_set_ratio c1 (Z.of_nat n2)) (Z.of_nat n2) (Z.of_nat ((length ms1 - 2) mod n1)) l1 y out1 ms2 Hs1) as (c2 & F2 & Hs2 & _ & _ & Ec2);
    [unfold key_mod; lia|exact Ec1|exact Hl1|reflexivity|lia|exact Hp1|lia|lia|unfold int_max; lia| |].
  { rewrite El1. apply increasing_select. rewrite E1, <- app_assoc in Hinc. exact Hinc. }
  exists g1, c1, out1, c2. split; [exact F1|]. split; [exact F2|]. split; [apply Hs2|].
  now rewrite Ec2, Ec1, removelast_last, E2, last_last.
Qed.

(** The first two measurements on a cleared curve are taken as they are, without counting. *)
Lemma first_two g (c : curve) a b out : tlt (fst a) (fst b) = true -> (g + 2 < key_mod)%N ->
  exists m out', slerp_feed g (slerp_clear c) [a; b] out = Ok ((g + 2)%N, Slerp m (s_pol c), out') /\
    sane (g + 2) m /\ contents m = [a; b].
Proof.
  intros Ht Hg. destruct a as [ta va], b as [tb vb]. cbn [fst] in Ht.
  unfold slerp_feed. cbn [foldM fst snd]. unfold slerp_extend at 1. cbn [length Nat.eqb negb slerp_clear s_mgr].
  change (empty (clear (s_mgr c))) with true. cbn [orb]. rewrite insert_one.
  destruct (end_insert g (clear (s_mgr c)) ta va (sane_clear _ _)) as (m1 & -> & Hs1 & Ec1); [lia|now left|].
  cbn [bind s_pol]. unfold slerp_extend. cbn [length Nat.eqb negb s_mgr].
  change (contents (clear (s_mgr c))) with (@nil (T * V)) in Ec1. cbn [app] in Ec1.
  assert (Eb : empty m1 || (size m1 =? 1) = true) by (rewrite contents_empty, contents_size, Ec1; reflexivity).
  rewrite Eb, insert_one.
  destruct (end_insert (g + 1) m1 tb vb Hs1) as (m2 & -> & Hs2 & Ec2).
  { lia. } { right. now rewrite (contents_max _ [] _ _ Ec1). }
  cbn [bind s_pol]. replace (g + 1 + 1)%N with (g + 2)%N in * by lia.
  eexists _, _. split; [reflexivity|]. split; [exact Hs2|]. now rewrite Ec2, Ec1.
Qed.

(** clear does not reset the counter.  With q > 0 counted measurements, the first
    measurement after the second one replaces the second one, and so on. *)
Theorem C79_cleared : forall n (ms1 : list (T * V)) a b ms2 (g : N) out,
  2 <= n -> (Z.of_nat n < 2 ^ 31)%Z -> 2 <= length ms1 -> ms2 <> [] -> increasing ms1 -> increasing (a :: b :: ms2) ->
  (g + N.of_nat (length ms1 + 2 + length ms2) < 2 ^ 64)%N ->
  let q := (length ms1 - 2) mod n in
  exists g1 c1 out1 g2 c2 out2,
    slerp_feed g (slerp_set_ratio slerp_new (Z.of_nat n)) ms1 out = Ok (g1, c1, out1) /\
    slerp_feed g1 (slerp_clear c1) (a :: b :: ms2) out1 = Ok (g2, c2, out2) /\ consistent (s_mgr c2) /\
    contents (s_mgr c2) = (if q =? 0 then [a; b] else [a]) ++
      select (fun i => ((q + i + 1) mod n =? 0) || (i =? length ms2 - 1)) ms2.
Proof.
  intros n ms1 a b ms2 g out Hn Hm Hlen Hne Hinc1 Hinc2 Hg q.
  destruct (slerp_feed_spec g (slerp_set_ratio (@slerp_new T _ V) (Z.of_nat n)) (Z.of_nat n) out ms1)
    as (g1 & c1 & out1 & E & Hs & Hgg & Hmin & Hp & Ec); auto.
  { unfold int_max. lia. } { apply sane_new. } { unfold key_mod. lia. }
  rewrite Nat2Z.id in *. assert (Hq : p_count (s_pol c1) = Z.of_nat q).
  { rewrite Hp. unfold slerp_count. destruct (Nat.eqb_spec n 1); [lia|reflexivity]. }
  destruct Hinc2 as [Hab Hinc2].
  destruct (first_two g1 c1 a b out1 Hab) as (m & out' & F1 & Hs1 & Ec1); [unfold key_mod; lia|].
  destruct (more_feed (g1 + 2) (Slerp m (s_pol c1)) n q [a] b out' ms2)
    as (g2 & c2 & out2 & F2 & Hs2 & _ & _ & _ & Ec2); auto.
  { unfold key_mod. lia. } { discriminate. } { unfold int_max. lia. } { apply Nat.mod_upper_bound. lia. }
  { split; assumption. }
  exists g1, c1, out1, g2, c2, out2. split; [exact E|]. split.
  { change (a :: b :: ms2) with ([a; b] ++ ms2). unfold slerp_feed in *. rewrite foldM_app, F1. cbn [bind]. exact F2. }
  split; [apply Hs2|]. rewrite Ec2. unfold after_more. destruct ms2; [congruence|]. reflexivity.
Qed.

End Slerp.

(** So a cleared curve is not like a new one with the same ratio. *)
Theorem C79_cleared_like_new_refuted : exists n (ms1 ms2 : list (Z * Z)) g1 c1 out1 g2 c2 out2 g3 c3 out3,
  (1 <= n < 2 ^ 31)%Z /\ increasing ms1 /\ increasing ms2 /\
  slerp_feed 0 (slerp_set_ratio slerp_new n) ms1 [] = Ok (g1, c1, out1) /\
  slerp_feed g1 (slerp_clear c1) ms2 out1 = Ok (g2, c2, out2) /\
  slerp_feed g1 (slerp_set_ratio slerp_new n) ms2 out1 = Ok (g3, c3, out3) /\
  contents (s_mgr c2) = [(10, 1); (12, 3)]%Z /\ contents (s_mgr c3) = [(10, 1); (11, 2); (12, 3)]%Z.
Proof.
  exists 3%Z, [(0, 0); (1, 0); (2, 0)]%Z, [(10, 1); (11, 2); (12, 3)]%Z.
  do 9 eexists. split; [lia|]. split; [simpl; auto|]. split; [simpl; auto|].
  split; [vm_compute; reflexivity|]. split; [vm_compute; reflexivity|]. split; [vm_compute; reflexivity|].
  split; vm_compute; reflexivity.
Qed.

(** ** The Hermite policy *)

Section Hermite.
Context {T V D : Type} `{TimeLaws T}.
Variable dzero : D.
Variable slope : T -> T -> V -> V -> D.
Variable tadd : T -> T -> T.
Local Notation curve := (hermite_curve T V D).
Local Notation extend := (hermite_extend dzero slope tadd).

(** The last permanent measurement and those pending end the measurements so far. *)
Definition ends_with (done perm pending : list (T * V)) : Prop :=
  (done = [] /\ perm = [] /\ pending = []) \/
  (exists perm0 y l, perm = perm0 ++ [y] /\ done = l ++ y :: pending).

Lemma hermite_more n p : forall (ms done : list (T * V)) perm pending g (c : curve),
  (1 <= n)%Z -> hinv dzero slope g c n p perm pending -> ends_with done perm pending ->
  (g + N.of_nat (length ms) < key_mod)%N -> increasing (done ++ ms) ->
  (Z.of_nat (length (done ++ ms)) < 2 ^ 31)%Z ->
  exists c', extend g c (map fst ms) (map snd ms) = Ok ((g + N.of_nat (length ms))%N, c') /\
    let s := fold_left (sample tadd (Z.to_nat n) p) ms (perm, pending) in
    hinv dzero slope (g + N.of_nat (length ms)) c' n p (fst s) (snd s) /\ ends_with (done ++ ms) (fst s) (snd s).
Proof.
  induction ms as [|x ms IH]; intros done perm pending g c Hn Hi He Hg Hinc Hcap.
  - exists c. rewrite N.add_0_r, app_nil_r. auto.
  - cbn [length] in Hg. cbn [map hermite_extend].
    assert (Hinc' : increasing (done ++ [x])).
    { change (x :: ms) with ([x] ++ ms) in Hinc. rewrite app_assoc in Hinc. now apply increasing_prefix in Hinc. }
    pose proof (hermite_step dzero slope tadd g c n p perm pending x Hn Hi) as Hst.
    assert (He' : let s := sample tadd (Z.to_nat n) p (perm, pending) x in ends_with (done ++ [x]) (fst s) (snd s)).
    { unfold sample. destruct He as [(-> & -> & ->)|(perm0 & y & l & -> & ->)].
      - right. exists [], x, []. auto.
      - rewrite rev_app_distr. cbn [rev app].
        destruct ((Z.to_nat n <=? length pending) && tlt (tadd (fst y) p) (fst x)); right; cbn [fst snd].
        + exists (perm0 ++ [y]), x, (l ++ y :: pending). auto.
        + exists perm0, y, l. split; auto. now rewrite <- app_assoc. }
    cbn [fold_left]. destruct (sample tadd (Z.to_nat n) p (perm, pending) x) as [perm' pending'] eqn:Es. cbn [fst snd] in He'.
    destruct Hst as (c1 & E1 & Hi1).
    + lia.
    + left. rewrite app_length in Hcap. cbn [length] in Hcap. unfold int_max.
      destruct He as [(-> & -> & ->)|(perm0 & y & l & -> & ->)]; [cbn; lia|].
      rewrite app_length in Hcap. cbn [length] in Hcap. lia.
    + intros l z E. destruct He as [(-> & -> & ->)|(perm0 & y & l0 & -> & ->)].
      { now apply app_cons_not_nil in E. }
      assert (El : exists l', l0 ++ y :: pending = l' ++ [z]).
      { destruct pending as [|e r _] using rev_ind.
        - rewrite app_nil_r in E. apply app_inj_tail in E as [_ ->]. eauto.
        - rewrite app_assoc in E. apply app_inj_tail in E as [_ ->].
          exists (l0 ++ y :: r). now rewrite <- app_assoc. }
      destruct El as (l' & El). rewrite El, <- app_assoc in Hinc'. apply increasing_snoc in Hinc'. tauto.
    + intros l y0 E. destruct He as [(-> & -> & ->)|(perm0 & y & l0 & -> & ->)].
      { now apply app_cons_not_nil in E. }
      apply app_inj_tail in E as [_ ->]. rewrite <- app_assoc in Hinc'.
      apply increasing_suffix in Hinc'. cbn [app] in Hinc'. now apply increasing_ends in Hinc'.
    + rewrite E1. cbn [bind].
      destruct (IH (done ++ [x]) perm' pending' (g + 1)%N c1 Hn Hi1 He') as (c' & E & R).
      { lia. } { now rewrite <- app_assoc. } { now rewrite <- app_assoc. }
      exists c'. rewrite <- app_assoc in R. replace (g + 1 + N.of_nat (length ms))%N with (g + N.of_nat (length (x :: ms)))%N in * by (cbn [length]; lia).
      auto.
Qed.

(** Measurements in portions, each with a ratio and a period set before it. *)
Definition portion := (Z * T * list (T * V))%type.

Definition extend_portions (g : N) (c : curve) (ps : list portion) : outcome (N * curve) :=
  foldM (fun s b => let '(g, c) := s in let '(n, p, ms) := b in
    extend g (hermite_set_period (hermite_set_ratio c n) p) (map fst ms) (map snd ms)) ps (g, c).

Definition sampled_portions (ps : list portion) : list (T * V) * list (T * V) :=
  fold_left (fun s b => let '(n, p, ms) := b in fold_left (sample tadd (Z.to_nat n) p) ms s) ps ([], []).

(** New settings apply from the next measurement on: whether it becomes permanent depends
    on the measurements since the last permanent one and on the settings in force. *)
Theorem C79_hermite_settings : forall (ps : list portion) g,
  let ms := flat_map snd ps in
  Forall (fun b => (1 <= fst (fst b))%Z) ps -> increasing ms ->
  (g + N.of_nat (length ms) < 2 ^ 64)%N -> (Z.of_nat (length ms) < 2 ^ 31)%Z ->
  exists c', extend_portions g hermite_new ps = Ok ((g + N.of_nat (length ms))%N, c') /\ consistent (h_mgr c') /\
    let (perm, pending) := sampled_portions ps in
    contents (h_mgr c') = knots dzero slope perm ++ temporary dzero slope perm pending.
Proof.
  intros ps g ms Hn Hinc Hg Hcap.
  assert (X : exists c', extend_portions g hermite_new ps = Ok ((g + N.of_nat (length ms))%N, c') /\
    exists n p, hinv dzero slope (g + N.of_nat (length ms)) c' n p (fst (sampled_portions ps)) (snd (sampled_portions ps)) /\
      ends_with ms (fst (sampled_portions ps)) (snd (sampled_portions ps))).
  { subst ms. unfold portion in *. induction ps as [|[[n p] ms] ps IH] using rev_ind.
    - exists hermite_new. cbn [flat_map length]. rewrite N.add_0_r. split; [reflexivity|].
      exists 4%Z, tzero. split; [apply (hinv_new dzero slope g 4 tzero)|]. left. auto.
    - rewrite flat_map_app in *. cbn [flat_map snd] in *. rewrite app_nil_r in *. rewrite app_length in *.
      apply Forall_app in Hn as [Hn Hn']. inversion Hn' as [|? ? Hx _]; subst. cbn [fst] in Hx.
      destruct IH as (c1 & E1 & n1 & p1 & Hi1 & He1); auto; [now apply increasing_prefix in Hinc|lia|lia|].
      set (done := flat_map snd ps) in *.
      assert (Hi2 : hinv dzero slope (g + N.of_nat (length done)) (hermite_set_period (hermite_set_ratio c1 n) p) n p
        (fst (sampled_portions ps)) (snd (sampled_portions ps))).
      { destruct Hi1. constructor; auto. }
      destruct (hermite_more n p ms done _ _ _ _ Hx Hi2 He1) as (c2 & E2 & Hi3 & He3); auto.
      { unfold key_mod. lia. } { rewrite app_length. lia. }
      replace (g + N.of_nat (length done) + N.of_nat (length ms))%N with (g + N.of_nat (length done + length ms))%N in * by lia.
      exists c2. unfold extend_portions, sampled_portions in *. rewrite foldM_app, E1, fold_left_app. cbn [bind foldM fold_left].
      rewrite <- surjective_pairing in Hi3, He3. rewrite E2. split; [reflexivity|]. exists n, p. auto. }
  destruct X as (c' & E & n & p & Hi & _). exists c'. split; [exact E|]. split; [apply Hi|].
  pose proof (hi_contents _ _ _ _ _ _ _ _ Hi) as Hcon. now destruct (sampled_portions ps).
Qed.

(** A new curve, whose settings nobody changed, waits for four measurements and for no
    period: after a permanent measurement the fifth is the next permanent one. *)
Theorem C17_default_settings : forall (ms : list (T * V)) (g : N),
  increasing ms -> (g + N.of_nat (length ms) < 2 ^ 64)%N -> (Z.of_nat (length ms) < 2 ^ 31)%Z ->
  exists c', extend g hermite_new (map fst ms) (map snd ms) = Ok ((g + N.of_nat (length ms))%N, c') /\ consistent (h_mgr c') /\ let (perm, pending) := sampled tadd 4 tzero ms in
    contents (h_mgr c') = knots dzero slope perm ++ temporary dzero slope perm pending.
Proof. intros ms g. apply (C17_curve dzero slope tadd 4 tzero ms g). lia. Qed.

(** ** C80: lists of different length *)

(** The policy does not compare the lengths.  Values without a time are ignored. *)
Theorem C80_extra_values : forall g (c : curve) ts vs vs', length ts = length vs ->
  extend g c ts (vs ++ vs') = extend g c ts vs.
Proof.
  intros g c ts vs vs'. revert g c vs. induction ts as [|t ts IH]; intros g c [|v vs] E; try discriminate E; [now destruct vs'|].
  cbn [app hermite_extend]. destruct (hermite_extend_one dzero slope tadd g c t v) as [[g' c']| | |]; try reflexivity.
  cbn [bind]. apply IH. now injection E.
Qed.

(** If times are left over, the call does not return: either the part with values does
    not, or the next time is not newer (abort), or the value is read beyond the end. *)
Theorem C80_missing_values : forall g (c : curve) ts vs t ts', length ts = length vs ->
  (forall g' c', extend g c ts vs = Ok (g', c') ->
     extend g c (ts ++ t :: ts') vs =
       if size (h_mgr c') =? 0 then UB else if tlt (max_time (h_mgr c')) t then UB else Abort) /\
  ((forall g' c', extend g c ts vs <> Ok (g', c')) -> extend g c (ts ++ t :: ts') vs = extend g c ts vs).
Proof.
  intros g c ts vs t ts'. revert g c vs. induction ts as [|t0 ts IH]; intros g c [|v vs] E; try discriminate E.
  - split.
    + cbn [app hermite_extend]. intros g' c' [= <- <-]. unfold size, empty. destruct (nodes (h_mgr c)) as [|x l].
      * cbn [length Nat.eqb]. now rewrite orb_true_r.
      * cbn [length Nat.eqb]. rewrite orb_false_r. now destruct (tlt (max_time (h_mgr c)) t).
    + intros X. exfalso. exact (X g c eq_refl).
  - cbn [app hermite_extend]. destruct (hermite_extend_one dzero slope tadd g c t0 v) as [[g1 c1]| | |]; cbn [bind];
      try (split; [discriminate|reflexivity]).
    apply IH. now injection E.
Qed.

(** For increasing measurements on a new curve: undefined behaviour. *)
Theorem C80_missing_values_new : forall (n : Z) (p : T) (ms : list (T * V)) t ts' g, (1 <= n)%Z ->
  increasing ms -> (forall m, In m ms -> tlt (fst m) t = true) ->
  (g + N.of_nat (length ms) < 2 ^ 64)%N -> (Z.of_nat (length ms) < 2 ^ 31)%Z ->
  extend g (hermite_set_period (hermite_set_ratio hermite_new n) p) (map fst ms ++ t :: ts') (map snd ms) = UB.
Proof.
  intros n p ms t ts' g Hn Hinc Ht Hg Hcap.
  destruct (C17_curve dzero slope tadd n p ms g Hn Hinc Hg Hcap) as (c' & E & _).
  destruct (C80_missing_values g (hermite_set_period (hermite_set_ratio hermite_new n) p) (map fst ms) (map snd ms) t ts')
    as [X _]; [now rewrite !map_length|].
  rewrite (X _ _ E). destruct ms as [|m ms].
  - cbn in E. injection E as _ <-. reflexivity.
  - destruct (exists_last (l := m :: ms)) as (l & [tn vn] & El); [discriminate|].
    destruct (C17_newest_and_spacing dzero slope tadd n p (m :: ms) g _ _ Hn Hinc Hg Hcap E) as (Y & _).
    destruct (Y l tn vn El) as (l' & d & _ & ->). assert (Hl : tlt (fst (tn, vn)) t = true) by (apply Ht; rewrite El; apply in_or_app; right; now left).
    cbn [fst] in Hl. rewrite Hl. now destruct (_ =? _).
Qed.

(** A cleared curve is like a new one with the same settings. *)
Theorem C79_hermite_cleared : forall (c : curve) (ms : list (T * V)) (g : N),
  let n := p_min (h_pol c) in let p := p_period (h_pol c) in
  (1 <= n)%Z -> increasing ms -> (g + N.of_nat (length ms) < 2 ^ 64)%N -> (Z.of_nat (length ms) < 2 ^ 31)%Z ->
  exists c1 c2,
    extend g (Hermite (clear (h_mgr c)) (h_pol c)) (map fst ms) (map snd ms) = Ok ((g + N.of_nat (length ms))%N, c1) /\
    extend g (hermite_set_period (hermite_set_ratio hermite_new n) p) (map fst ms) (map snd ms) =
      Ok ((g + N.of_nat (length ms))%N, c2) /\
    consistent (h_mgr c1) /\ contents (h_mgr c1) = contents (h_mgr c2) /\
    (ms <> [] -> p_count (h_pol c1) = p_count (h_pol c2) /\ p_last (h_pol c1) = p_last (h_pol c2)).
Proof.
  intros c ms g n p Hn Hinc Hg Hcap.
  assert (He0 : ends_with [] [] []) by (left; auto).
  assert (Hi1 : hinv dzero slope g (Hermite (clear (h_mgr c)) (h_pol c)) n p [] []).
  { constructor; auto; try reflexivity.
    - apply sane_clear.
    - intros X. congruence.
    - intros l y X. now apply app_cons_not_nil in X. }
  destruct (hermite_more n p ms [] [] [] g _ Hn Hi1 He0 Hg Hinc Hcap) as (c1 & E1 & A1 & B1).
  destruct (hermite_more n p ms [] [] [] g _ Hn (hinv_new dzero slope g n p) He0 Hg Hinc Hcap) as (c2 & E2 & A2 & _).
  exists c1, c2. split; [exact E1|]. split; [exact E2|]. split; [apply A1|]. split.
  - now rewrite (hi_contents _ _ _ _ _ _ _ _ A1), (hi_contents _ _ _ _ _ _ _ _ A2).
  - intros Hne. cbv zeta in *. destruct B1 as [(X & _)|(perm0 & y & l & Ep & _)]; [now rewrite app_nil_l in X|].
    split.
    + rewrite (hi_count _ _ _ _ _ _ _ _ A1), (hi_count _ _ _ _ _ _ _ _ A2); auto; rewrite Ep; intros X; symmetry in X; now apply app_cons_not_nil in X.
    + now rewrite (hi_last _ _ _ _ _ _ _ _ A1 _ _ Ep), (hi_last _ _ _ _ _ _ _ _ A2 _ _ Ep).
Qed.

End Hermite.

(** ** The hypotheses can be met *)

(** Ratio 4, then 3 with one measurement counted: of the five that follow, the second and the
    fifth make the count 3. *)
Example C79_ratio_example : exists g1 (c1 : slerp_curve Z Z) out1 g2 c2 out2,
  slerp_feed 0 (slerp_set_ratio slerp_new 4) [(0, 0); (1, 1); (2, 2)]%Z [] = Ok (g1, c1, out1) /\
  slerp_feed g1 (slerp_set_ratio c1 3) [(3, 3); (4, 4); (5, 5); (6, 6); (7, 7)]%Z out1 = Ok (g2, c2, out2) /\
  contents (s_mgr c2) = [(0, 0); (1, 1); (4, 4); (7, 7)]%Z.
Proof.
  destruct (C79_ratio_changed 4 3 [(0, 0); (1, 1); (2, 2)]%Z [(3, 3); (4, 4); (5, 5); (6, 6); (7, 7)]%Z
    [(0, 0); (1, 1)]%Z (2, 2)%Z 0%N []) as (g1 & c1 & out1 & g2 & c2 & out2 & E1 & E2 & _ & Ec);
    try lia; try discriminate; try reflexivity; [simpl; repeat split; auto|simpl; lia|].
  exists g1, c1, out1, g2, c2, out2. split; [exact E1|]. split; [exact E2|].
  rewrite Ec. revert E1. vm_compute. intros [= <- <- <-]. reflexivity.
Qed.

(** Ratio 4, then 2 with three measurements counted. *)
Example C79_lowered_example : exists g1 (c1 : slerp_curve Z Z) out1 c2,
  slerp_feed 0 (slerp_set_ratio slerp_new 4) [(0, 0); (1, 1); (2, 2); (3, 3); (4, 4)]%Z [] = Ok (g1, c1, out1) /\
  slerp_feed g1 (slerp_set_ratio c1 2) [(5, 5); (6, 6); (7, 7)]%Z out1 = Ok (g1, c2, out1) /\
  contents (s_mgr c2) = [(0, 0); (1, 1); (7, 7)]%Z.
Proof.
  destruct (C79_ratio_lowered 4 2 [(0, 0); (1, 1); (2, 2); (3, 3); (4, 4)]%Z [(5, 5); (6, 6); (7, 7)]%Z
    [(0, 0); (1, 1); (2, 2); (3, 3)]%Z (4, 4)%Z [(5, 5); (6, 6)]%Z (7, 7)%Z 0%N []) as (g1 & c1 & out1 & c2 & E1 & E2 & _ & Ec);
    try lia; try discriminate; try reflexivity; [simpl; repeat split; auto|simpl; lia|].
  exists g1, c1, out1, c2. split; [exact E1|]. split; [exact E2|].
  rewrite Ec. revert E1. vm_compute. intros [= <- <- <-]. reflexivity.
Qed.

Example C79_cleared_example : exists g1 (c1 : slerp_curve Z Z) out1 g2 c2 out2,
  slerp_feed 0 (slerp_set_ratio slerp_new 3) [(0, 0); (1, 1); (2, 2)]%Z [] = Ok (g1, c1, out1) /\
  slerp_feed g1 (slerp_clear c1) [(10, 0); (11, 1); (12, 2); (13, 3)]%Z out1 = Ok (g2, c2, out2) /\
  contents (s_mgr c2) = [(10, 0); (13, 3)]%Z.
Proof.
  destruct (C79_cleared 3 [(0, 0); (1, 1); (2, 2)]%Z (10, 0)%Z (11, 1)%Z [(12, 2); (13, 3)]%Z 0%N [])
    as (g1 & c1 & out1 & g2 & c2 & out2 & E1 & E2 & _ & Ec);
    try lia; try discriminate; try reflexivity; simpl; auto.
  exists g1, c1, out1, g2, c2, out2. split; [exact E1|]. split; [exact E2|]. rewrite Ec. reflexivity.
Qed.

(** Two portions, with ratios 2 and 1; derivatives are slopes of integers. *)
Example C79_hermite_example : exists c' : hermite_curve Z Z Z,
  extend_portions 0%Z (fun t0 t1 v0 v1 => (v1 - v0) / (t1 - t0))%Z Z.add 0 hermite_new
    [(2, 0, [(0, 0); (1, 1); (2, 2); (3, 6)]); (1, 0, [(4, 8); (5, 10)])]%Z = Ok (6%N, c') /\
  contents (h_mgr c') = [(0, (0, 2)); (3, (6, 2)); (5, (10, 2))]%Z.
Proof.
  destruct (C79_hermite_settings 0%Z (fun t0 t1 v0 v1 => (v1 - v0) / (t1 - t0))%Z Z.add
    [(2, 0, [(0, 0); (1, 1); (2, 2); (3, 6)]); (1, 0, [(4, 8); (5, 10)])]%Z 0%N) as (c' & E & _ & Ec);
    [repeat constructor; simpl; lia|simpl; repeat split; auto|reflexivity|reflexivity|].
  exists c'. split; [exact E|]. rewrite Ec. reflexivity.
Qed.

(** A curve with a measurement pending. *)
Example C79_hermite_cleared_example : exists g1 (c c1 : hermite_curve Z Z Z),
  hermite_extend 0%Z (fun t0 t1 v0 v1 => (v1 - v0) / (t1 - t0))%Z Z.add 0 hermite_new [0; 1; 2]%Z [0; 1; 2]%Z = Ok (g1, c) /\
  p_count (h_pol c) = 2%Z /\
  hermite_extend 0%Z (fun t0 t1 v0 v1 => (v1 - v0) / (t1 - t0))%Z Z.add g1 (Hermite (clear (h_mgr c)) (h_pol c))
    [5; 6]%Z [0; 1]%Z = Ok ((g1 + 2)%N, c1) /\ contents (h_mgr c1) = [(5, (0, 0)); (6, (1, 0))]%Z.
Proof.
  eexists _, _. eexists. split; [vm_compute; reflexivity|]. split; [reflexivity|].
  split; [vm_compute; reflexivity|]. vm_compute. reflexivity.
Qed.

Example C15_default_example : exists g' (c' : slerp_curve Z Z) out',
  slerp_feed 0 slerp_new [(0, 5); (1, 6); (2, 7); (3, 8)]%Z [] = Ok (g', c', out') /\
  contents (s_mgr c') = [(0, 5); (1, 6); (2, 7); (3, 8)]%Z.
Proof.
  destruct (C15_default_ratio [(0, 5); (1, 6); (2, 7); (3, 8)]%Z 0%N []) as (g' & c' & out' & E & _ & Ec);
    [simpl; repeat split; auto|simpl; lia|]. exists g', c', out'. auto.
Qed.

Example C17_default_example : exists c' : hermite_curve Z Z Z,
  hermite_extend 0%Z (fun t0 t1 v0 v1 => (v1 - v0) / (t1 - t0))%Z Z.add 0 hermite_new
    [0; 1; 2; 3; 4; 5; 6]%Z [0; 1; 2; 3; 4; 10; 12]%Z = Ok (7%N, c') /\
  map fst (contents (h_mgr c')) = [0; 5; 6]%Z.
Proof.
  destruct (C17_default_settings 0%Z (fun t0 t1 v0 v1 => (v1 - v0) / (t1 - t0))%Z Z.add
    [(0, 0); (1, 1); (2, 2); (3, 3); (4, 4); (5, 10); (6, 12)]%Z 0%N) as (c' & E & _ & Ec);
    [simpl; repeat split; auto|reflexivity|reflexivity|].
  exists c'. split; [exact E|]. revert Ec. vm_compute. now intros ->.
Qed.

Example C80_example :
  let ext := hermite_extend 0%Z (fun t0 t1 v0 v1 => (v1 - v0) / (t1 - t0))%Z Z.add 0 (@hermite_new Z _ Z Z) in
  ext [0; 1; 2]%Z [5; 6]%Z = UB /\ ext [0; 1; 1]%Z [5; 6]%Z = Abort /\ ext [1; 0; 2]%Z [5; 6]%Z = Abort /\
  ext [0; 1]%Z [5; 6; 7]%Z = ext [0; 1]%Z [5; 6]%Z /\ is_ok (ext [0; 1]%Z [5; 6]%Z) = true.
Proof. vm_compute. repeat split. Qed.
