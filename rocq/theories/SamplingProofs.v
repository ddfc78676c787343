(** * Operations at the end of a coefficient manager, and the invariants of the
    sampling policies *)

From Coq Require Import List Bool Arith NArith ZArith Lia Permutation Sorting.Sorted.
From Verif Require Import Base TimeOrder KeyGen Manager ManagerSpec ManagerProofs ManagerProofs2
  ManagerProofs3 Sampling SamplingSpec.
Import ListNotations.

Section Ends.
Context {T C : Type} `{TimeLaws T}.
Local Notation mgr := (mgr T C).
Local Notation node := (node T C).

Lemma contents_app (m : mgr) a b :
  nodes m = a ++ b -> contents m =
  map (fun n => (n_time n, n_coef n)) a ++ map (fun n => (n_time n, n_coef n)) b.
Proof. intros E. unfold contents. now rewrite E, map_app. Qed.

(** Node level description of a manager whose contents end with a given entry. *)
Lemma contents_snoc (m : mgr) l t c :
  contents m = l ++ [(t, c)] ->
  exists a n, nodes m = a ++ [n] /\ n_time n = t /\ n_coef n = c /\
    map (fun n => (n_time n, n_coef n)) a = l.
Proof.
  unfold contents. destruct (nodes m) as [|x r] using rev_ind.
  - intros E. now apply app_cons_not_nil in E.
  - rewrite map_app. simpl. intros E. apply app_inj_tail in E as [E1 E2].
    injection E2 as E2 E3. eauto 10.
Qed.

Lemma contents_nil (m : mgr) : contents m = [] <-> nodes m = [].
Proof. unfold contents. destruct (nodes m); simpl; split; congruence. Qed.

Lemma contents_size (m : mgr) : size m = length (contents m).
Proof. unfold size, contents. now rewrite map_length. Qed.

Lemma contents_empty (m : mgr) : empty m = match contents m with [] => true | _ => false end.
Proof. unfold empty, contents. now destruct (nodes m). Qed.

Lemma contents_max (m : mgr) l t c : contents m = l ++ [(t, c)] -> max_time m = t.
Proof.
  intros E. destruct (contents_snoc _ _ _ _ E) as (a & n & En & <- & _).
  now apply (max_time_app m a).
Qed.

Lemma contents_last (m : mgr) l t c : contents m = l ++ [(t, c)] ->
  exists n, last_node (nodes m) = Some n /\ In n (nodes m) /\ n_time n = t /\ n_coef n = c.
Proof.
  intros E. destruct (contents_snoc _ _ _ _ E) as (a & n & En & E1 & E2 & _).
  exists n. rewrite En, last_node_app, in_app_iff. simpl. auto.
Qed.

Lemma contents_pair (m : mgr) l t0 c0 t1 c1 :
  contents m = l ++ [(t0, c0); (t1, c1)] ->
  exists n0 n1, get_coefficients_at m t1 = Some (n0, n1) /\ In n1 (nodes m) /\
    n_time n0 = t0 /\ n_coef n0 = c0 /\ n_time n1 = t1 /\ n_coef n1 = c1.
Proof.
  intros E. pose proof (contents_max m (l ++ [(t0, c0)]) t1 c1) as Em.
  rewrite <- app_assoc in Em. specialize (Em E).
  destruct (contents_snoc m (l ++ [(t0, c0)]) t1 c1) as (a & n1 & En & E1 & E2 & Ea);
    [now rewrite <- app_assoc|].
  destruct a as [|n0 a _] using rev_ind; [now apply app_cons_not_nil in Ea|].
  rewrite map_app in Ea. simpl in Ea. apply app_inj_tail in Ea as [_ Ea]. injection Ea as E3 E4.
  exists n0, n1. unfold get_coefficients_at.
  rewrite contents_empty, E, Em, teq_refl, En.
  destruct (l ++ [(t0, c0); (t1, c1)]) eqn:X; [now apply app_eq_nil in X as [_ X]|].
  rewrite <- app_assoc. simpl. rewrite last_two_app.
  repeat split; auto. rewrite !in_app_iff. simpl. auto.
Qed.

(** A manager as the functions leave it in a process with key counter [g]. *)
Definition sane (g : N) (m : mgr) : Prop := consistent m /\ keys_below g m.

Lemma sane_mono g g' m : (g <= g')%N -> sane g m -> sane g' m.
Proof. intros Hg [A B]. split; auto. now apply (keys_below_mono g). Qed.

Lemma sane_clear g m : sane g (clear m).
Proof. split; [apply clear_consistent|]. constructor. Qed.

Lemma end_add g m t c out :
  sane g m -> (g + 1 < key_mod)%N -> contents m <> [] -> tlt (max_time m) t = true ->
  exists m', add_coefficient_at_end g m t c out = Ok ((g + 1)%N, m', out ++ [(g + 1)%N]) /\
    sane (g + 1) m' /\ contents m' = contents m ++ [(t, c)].
Proof.
  intros [Hc Hb] Hg Hne Ht.
  destruct (add_end_spec m g t c out) as (m' & E & A & B & D & _); auto.
  { intros E. apply Hne. now apply contents_nil. }
  exists m'. split; auto. split; [now split|]. rewrite (contents_app m' _ _ D). reflexivity.
Qed.

Lemma end_insert g m t c :
  sane g m -> (g + 1 < key_mod)%N -> contents m = [] \/ tlt (max_time m) t = true ->
  exists m', insert_coefficient g m t c = Ok ((g + 1)%N, m', (g + 1)%N) /\
    sane (g + 1) m' /\ contents m' = contents m ++ [(t, c)].
Proof.
  intros [Hc Hb] Hg Ht.
  assert (Hf : Forall (fun n => tlt (n_time n) t = true) (nodes m)).
  { destruct Ht as [E|Ht]; [apply contents_nil in E as ->; constructor|].
    apply Forall_forall. intros n Hi. exact (tle_lt_trans _ _ _ (max_time_bound _ _ Hc Hi) Ht). }
  assert (Hp : ~ present m t).
  { intros (k & c' & n & Hi & E & _). rewrite Forall_forall in Hf. specialize (Hf _ Hi).
    rewrite (tlt_not_teq _ _ Hf) in E. discriminate. }
  unfold insert_coefficient.
  destruct (scan_spec (nodes m) t (cons_sorted _ Hc)) as [(n & Hi & E & _)|[Hn ->]].
  { exfalso. apply Hp. exists (n_key n), (n_coef n), n. auto. }
  rewrite (next_key_nowrap _ Hg).
  destruct (map_insert_absent (Node (fresh m) t (g + 1)%N c) (nodes m) (cons_sorted _ Hc))
    as (a & b & El & Ha & Hbb & Ei); [exact Hn|].
  simpl in Ha, Hbb.
  assert (b = []) as ->.
  { destruct b as [|x b]; auto. exfalso. inversion Hbb; subst.
    rewrite El in Hf. apply Forall_app in Hf as [_ Hf]. inversion Hf; subst.
    pose proof (tlt_asym _ _ H3). congruence. }
  rewrite Ei. simpl. rewrite app_nil_r in El. subst a.
  eexists. split; [reflexivity|]. split; [split|].
  - eapply consistent_insert; eauto; [now rewrite app_nil_r|now apply below_not_known|].
    apply idx_set_absent. intros Hx. apply (below_not_known m g Hb).
    eapply Permutation_in; [apply cons_index_keys; auto | exact Hx].
  - unfold keys_below, get_keys. simpl. rewrite map_app. apply Forall_app. split.
    + eapply Forall_impl; [|exact Hb]. simpl. lia.
    + constructor; [simpl; lia|constructor].
  - unfold contents. simpl. now rewrite map_app.
Qed.

Lemma end_remove g m l t c :
  sane g m -> contents m = l ++ [(t, c)] ->
  exists m', remove_coefficient_at_time m t = Ok m' /\ sane g m' /\ contents m' = l.
Proof.
  intros [Hc Hb] E. destruct (contents_snoc _ _ _ _ E) as (a & n & En & E1 & E2 & Ea).
  assert (Hi : In n (nodes m)) by (rewrite En, in_app_iff; simpl; auto).
  unfold remove_coefficient_at_time, has_coefficient_at_time.
  rewrite map_find_scan by now apply cons_sorted.
  rewrite (scan_some (nodes m) t n (cons_sorted _ Hc) Hi) by (rewrite E1; apply teq_refl).
  rewrite (cons_find _ _ Hc Hi).
  assert (Ee : map_erase (n_id n) (nodes m) = a).
  { rewrite En, map_erase_split, app_nil_r; auto. rewrite <- En. now apply c_ids. }
  rewrite Ee. eexists. split; [reflexivity|]. split; [split|].
  - pose proof (consistent_erase m a n [] Hc En) as X. now rewrite app_nil_r in X.
  - unfold keys_below, get_keys in *. simpl. rewrite En, map_app in Hb. now apply Forall_app in Hb.
  - exact Ea.
Qed.

Lemma end_update g m l t c c' n :
  sane g m -> contents m = l ++ [(t, c)] -> last_node (nodes m) = Some n ->
  exists m', update_coefficient_by_key m (n_key n) c' = Ok m' /\ sane g m' /\
    contents m' = l ++ [(t, c')].
Proof.
  intros [Hc Hb] E En'. destruct (contents_snoc _ _ _ _ E) as (a & n0 & En & E1 & E2 & Ea).
  rewrite En, last_node_app in En'. injection En' as ->.
  assert (Hi : In n (nodes m)) by (rewrite En, in_app_iff; simpl; auto).
  unfold update_coefficient_by_key. rewrite (cons_find _ _ Hc Hi), (cons_deref _ _ Hc Hi).
  simpl. eexists. split; [reflexivity|]. split; [split|].
  - now apply consistent_set_coef.
  - unfold keys_below, get_keys in *. simpl. now rewrite set_coef_keys.
  - unfold contents. simpl. rewrite En. unfold set_coef. rewrite map_app. simpl.
    rewrite Nat.eqb_refl, map_app. simpl. rewrite E1. f_equal. rewrite <- Ea, map_map.
    apply map_ext_in. intros x Hx. destruct (Nat.eqb_spec (n_id x) (n_id n)) as [Ex|]; auto.
    exfalso. pose proof (c_ids _ Hc) as Hn. rewrite En, map_app in Hn. simpl in Hn.
    apply NoDup_remove_2 in Hn. rewrite app_nil_r in Hn. apply Hn.
    rewrite <- Ex. now apply in_map.
Qed.

Lemma end_move g m l t c t' c' n :
  sane g m -> contents m = l ++ [(t, c)] -> last_node (nodes m) = Some n -> tlt t t' = true ->
  exists m', modify_coefficient m (At (n_id n)) t' c' = Ok m' /\ sane g m' /\
    contents m' = l ++ [(t', c')].
Proof.
  intros [Hc Hb] E En' Ht. destruct (contents_snoc _ _ _ _ E) as (a & n0 & En & E1 & E2 & Ea).
  rewrite En, last_node_app in En'. injection En' as ->.
  assert (Hi : In n (nodes m)) by (rewrite En, in_app_iff; simpl; auto).
  assert (Em : max_time m = t) by now apply (contents_max m l t c).
  destruct (move_spec m n t' c' Hc Hi) as (m' & Eq & Hc' & Hp & _).
  { apply above_max_not_present; auto. now rewrite Em. }
  exists m'. split; auto. split; [split; auto|].
  { unfold keys_below in *. eapply Permutation_Forall; [symmetry; exact Hp|auto]. }
  unfold modify_coefficient in Eq. rewrite (cons_deref _ _ Hc Hi) in Eq. simpl in Eq.
  destruct (map_insert_absent (Node (fresh m) t' (n_key n) c') (nodes m) (cons_sorted _ Hc))
    as (a1 & b & El & Ha & Hbb & Ei).
  { apply not_present_forall, above_max_not_present; auto. simpl. now rewrite Em. }
  simpl in Ha, Hbb.
  assert (b = []) as ->.
  { destruct b as [|x b]; auto. exfalso. inversion Hbb; subst.
    assert (Hx : In x (nodes m)) by (rewrite El, in_app_iff; simpl; auto).
    pose proof (max_time_bound _ _ Hc Hx) as Hm. 
    rewrite Em in Hm. pose proof (tle_lt_trans _ _ _ Hm Ht) as X. rewrite (tlt_asym _ _ X) in *. discriminate. }
  rewrite Ei in Eq. simpl in Eq. injection Eq as <-. rewrite app_nil_r in El. subst a1.
  unfold contents. simpl. rewrite En, <- app_assoc. simpl.
  rewrite map_erase_split; [|..|reflexivity].
  - rewrite map_app. simpl. now rewrite Ea.
  - assert (X : NoDup (map n_id (a ++ [n]))) by (rewrite <- En; now apply c_ids).
    pose proof (c_fresh _ Hc) as Hfr. rewrite En in Hfr.
    rewrite map_app in *. simpl in *. replace (map n_id a ++ [n_id n; fresh m])
      with ((map n_id a ++ [n_id n]) ++ [fresh m]) by now rewrite <- app_assoc.
    apply NoDup_app_iff. split; auto. split; [repeat constructor; intros []|].
    intros i Hin [<-|[]]. change [n_id n] with (map n_id [n]) in Hin.
    rewrite <- map_app in Hin. apply in_map_iff in Hin as (x & Ex & Hx).
    rewrite Forall_forall in Hfr. specialize (Hfr _ Hx). lia.
Qed.
End Ends.

(** ** Lists *)

Section Lists.
Context {A : Type}.
Implicit Types l : list A.

Lemma combine_snoc {B} (a : list B) l x y :
  length a = length l -> combine (a ++ [x]) (l ++ [y]) = combine a l ++ [(x, y)].
Proof.
  revert l. induction a as [|b a IH]; intros [|z l]; simpl; try discriminate; auto.
  intros [= E]. now rewrite IH.
Qed.

Lemma select_snoc f l x : select f (l ++ [x]) = select f l ++ if f (length l) then [x] else [].
Proof.
  unfold select. rewrite app_length, seq_app. simpl. rewrite combine_snoc by apply seq_length.
  rewrite filter_app, map_app. simpl. now destruct (f (length l)).
Qed.

Lemma select_nil f : select f (@nil A) = [].
Proof. reflexivity. Qed.

Lemma select_ext f f' l : (forall i, i < length l -> f i = f' i) -> select f l = select f' l.
Proof.
  induction l as [|x l IH] using rev_ind; auto. rewrite app_length. simpl. intros E.
  rewrite !select_snoc, IH by (intros; apply E; lia). now rewrite E by lia.
Qed.

Lemma hd_error_rev_snoc l x : hd_error (rev (l ++ [x])) = Some x.
Proof. now rewrite rev_app_distr. Qed.
End Lists.

Lemma increasing_snoc {T V} `{TimeOps T} (l : list (T * V)) y x :
  increasing (l ++ [y; x]) <-> increasing (l ++ [y]) /\ tlt (fst y) (fst x) = true.
Proof.
  induction l as [|a l IH]; cbn [app increasing]; [tauto|].
  rewrite IH. destruct l; cbn [app]; tauto.
Qed.

Lemma div_succ a n : 1 <= n -> S a / n = a / n + if S a mod n =? 0 then 1 else 0.
Proof.
  intros Hn. assert (Hn' : n <> 0) by lia.
  pose proof (Nat.div_mod a n Hn') as E. pose proof (Nat.mod_upper_bound a n Hn') as B.
  destruct (Nat.eq_dec (S (a mod n)) n) as [F|F].
  - assert (Q : S a / n = a / n + 1).
    { symmetry. apply Nat.div_unique with 0; [lia|]. rewrite Nat.mul_add_distr_l. lia. }
    assert (R : S a mod n = 0).
    { symmetry. apply Nat.mod_unique with (a / n + 1); [lia|]. rewrite Nat.mul_add_distr_l. lia. }
    now rewrite Q, R.
  - assert (Q : S a / n = a / n).
    { symmetry. apply Nat.div_unique with (S (a mod n)); lia. }
    assert (R : S a mod n = S (a mod n)).
    { symmetry. apply Nat.mod_unique with (a / n); lia. }
    rewrite Q, R. simpl. lia.
Qed.

Lemma ceil_div_succ a n : 1 <= n -> ceil_div (S a) n = a / n + 1.
Proof.
  intros Hn. unfold ceil_div. replace (S a + n - 1) with (a + 1 * n) by lia.
  rewrite Nat.div_add by lia. lia.
Qed.

Lemma ceil_div_0 n : 1 <= n -> ceil_div 0 n = 0.
Proof. intros Hn. unfold ceil_div. apply Nat.div_small. lia. Qed.

(** ** Slerp policy *)

Section SlerpSpec.
Context {A : Type}.
Variable n : nat.
Hypothesis Hn : 1 <= n.

Lemma slerp_kept_snoc (ms : list A) x :
  select (slerp_kept n (length (ms ++ [x]))) (ms ++ [x]) = select (slerp_permanent n) ms ++ [x].
Proof using n.
  clear Hn.
  rewrite select_snoc, app_length. simpl. f_equal.
  - apply select_ext. intros i Hi. unfold slerp_kept.
    destruct (Nat.eqb_spec i (length ms + 1 - 1)); [lia|]. now rewrite orb_false_r.
  - unfold slerp_kept. replace (length ms + 1 - 1) with (length ms) by lia.
    now rewrite Nat.eqb_refl, orb_true_r.
Qed.

Lemma slerp_permanent_count (ms : list A) :
  length (select (slerp_permanent n) ms) = Nat.min (length ms) 2 + (length ms - 2) / n.
Proof.
  induction ms as [|x ms IH] using rev_ind.
  - simpl. rewrite Nat.div_small; lia.
  - rewrite select_snoc, !app_length, IH. simpl length.
    destruct (Nat.lt_ge_cases (length ms) 2) as [L|L].
    + replace (length ms - 2) with 0 by lia. replace (length ms + 1 - 2) with 0 by lia.
      assert (E : slerp_permanent n (length ms) = true).
      { unfold slerp_permanent. now apply Nat.ltb_lt in L as ->. }
      rewrite E. simpl length. rewrite !Nat.div_small by lia. lia.
    + replace (length ms + 1 - 2) with (S (length ms - 2)) by lia.
      rewrite div_succ by auto. unfold slerp_permanent.
      destruct (Nat.ltb_spec (length ms) 2); [lia|]. cbn [orb].
      replace (length ms - 1) with (S (length ms - 2)) by lia.
      destruct (S (length ms - 2) mod n =? 0); simpl length; lia.
Qed.

Lemma slerp_kept_count (ms : list A) :
  length (select (slerp_kept n (length ms)) ms) =
  Nat.min (length ms) 2 + ceil_div (length ms - 2) n.
Proof.
  destruct ms as [|x ms _] using rev_ind.
  - simpl. now rewrite ceil_div_0.
  - rewrite slerp_kept_snoc, !app_length, slerp_permanent_count. simpl length.
    destruct (Nat.le_gt_cases (length ms) 1) as [L|L].
    + replace (length ms + 1 - 2) with 0 by lia. rewrite ceil_div_0 by auto.
      replace (length ms - 2) with 0 by lia. rewrite Nat.div_small; lia.
    + replace (length ms + 1 - 2) with (S (length ms - 2)) by lia.
      rewrite ceil_div_succ by auto. lia.
Qed.
End SlerpSpec.

Section SlerpProof.
Context {T V : Type} `{TimeLaws T}.
Local Notation curve := (slerp_curve T V).

Lemma insert_one g (m : mgr T V) t v out :
  insert_coefficients g m [t] [v] out =
  let* (g', m', k) := insert_coefficient g m t v in Ok (g', m', out ++ [k]).
Proof. reflexivity. Qed.

(** State of the policy after [m] measurements. *)
Definition slerp_count (n m : nat) : Z :=
  if n =? 1 then 0%Z else Z.of_nat ((m - 2) mod n).

Lemma slerp_step g (c : curve) n (ms : list (T * V)) x out :
  (1 <= n <= int_max)%Z -> let nn := Z.to_nat n in
  sane g (s_mgr c) -> (g + 1 < key_mod)%N ->
  p_min (s_pol c) = n -> p_count (s_pol c) = slerp_count nn (length ms) ->
  contents (s_mgr c) = select (slerp_kept nn (length ms)) ms ->
  increasing (ms ++ [x]) ->
  exists g' c' out', slerp_extend g c [fst x] [snd x] out = Ok (g', c', out') /\
    sane g' (s_mgr c') /\ (g <= g' <= g + 1)%N /\
    p_min (s_pol c') = n /\ p_count (s_pol c') = slerp_count nn (length (ms ++ [x])) /\
    contents (s_mgr c') = select (slerp_kept nn (length (ms ++ [x]))) (ms ++ [x]) /\
    (exists new, out' = out ++ new).
Proof.
  intros Hn nn Hs Hg Hmin Hcnt Hcon Hinc.
  assert (Hnn : 1 <= nn) by lia.
  assert (Hmax : forall ys y, ms = ys ++ [y] -> contents (s_mgr c) = select (slerp_permanent nn) ys ++ [y]
            /\ tlt (max_time (s_mgr c)) (fst x) = true).
  { intros ys y ->. rewrite slerp_kept_snoc in Hcon. split; auto. destruct y as [ty vy].
    rewrite (contents_max _ _ _ _ Hcon).
    rewrite <- app_assoc in Hinc. apply increasing_snoc in Hinc. tauto. }
  assert (Hsz : size (s_mgr c) = Nat.min (length ms) 2 + ceil_div (length ms - 2) nn).
  { rewrite contents_size, Hcon. now apply slerp_kept_count. }
  unfold slerp_extend. cbn [length]. rewrite Nat.eqb_refl. cbn [negb].
  destruct (Nat.le_gt_cases (length ms) 1) as [L|L].
  { (* at most one coefficient so far *)
    assert (Eb : empty (s_mgr c) || (size (s_mgr c) =? 1) = true).
    { rewrite Hsz, contents_empty, Hcon. replace (length ms - 2) with 0 by lia.
      rewrite ceil_div_0 by auto. destruct ms as [|? [|? ?]]; simpl in *; auto. lia. }
    rewrite Eb, insert_one.
    destruct (end_insert g (s_mgr c) (fst x) (snd x) Hs Hg) as (m' & -> & Hs' & Ec).
    { destruct ms as [|y ys _] using rev_ind; [left; now rewrite Hcon|].
      right. now destruct (Hmax ys y eq_refl). }
    cbn [bind]. do 3 eexists. split; [reflexivity|]. cbn [s_mgr s_pol].
    split; auto. split; [lia|]. split; auto. rewrite !app_length. simpl length.
    replace (length ms + 1 - 2) with 0 by lia.
    split; [|split; [|eauto]].
    - rewrite Hcnt. unfold slerp_count. replace (length ms - 2) with 0 by lia.
      replace (length ms + 1 - 2) with 0 by lia. reflexivity.
    - rewrite Ec, Hcon. replace (length ms + 1) with (length (ms ++ [x])) by apply app_length.
      rewrite slerp_kept_snoc, <- surjective_pairing. f_equal.
      apply select_ext. intros i Hi. unfold slerp_kept, slerp_permanent.
      destruct (Nat.ltb_spec i 2); [reflexivity|lia]. }
  (* at least two *)
  assert (Eb : empty (s_mgr c) || (size (s_mgr c) =? 1) = false).
  { apply orb_false_iff. split.
    - rewrite contents_empty. rewrite contents_size in Hsz.
      destruct (contents (s_mgr c)); auto. simpl in Hsz. lia.
    - apply Nat.eqb_neq. lia. }
  rewrite Eb. unfold slerp_extend_one. rewrite Hmin.
  destruct ms as [|y ys _] using rev_ind; [simpl in L; lia|].
  destruct (Hmax ys y eq_refl) as [Hcon' Hlt]. clear Hmax.
  assert (Hne : contents (s_mgr c) <> []).
  { rewrite Hcon'. intros E. symmetry in E. now apply app_cons_not_nil in E. }
  rewrite slerp_kept_snoc.
  rewrite app_length in L. simpl in L.
  assert (Ln : (length (ys ++ [y]) - 2) = length ys - 1) by (rewrite app_length; simpl; lia).
  assert (Ln' : (length ((ys ++ [y]) ++ [x]) - 2) = S (length ys - 1))
    by (rewrite !app_length; simpl; lia).
  unfold slerp_count in *. rewrite Ln in Hcnt. rewrite Ln'.
  rewrite select_snoc.
  assert (Ep : slerp_permanent nn (length ys) = ((length ys - 1) mod nn =? 0)).
  { unfold slerp_permanent. destruct (Nat.ltb_spec (length ys) 2); [|reflexivity].
    replace (length ys - 1) with 0 by lia. rewrite Nat.mod_0_l by lia. reflexivity. }
  rewrite Ep. destruct (Z.eqb_spec n 1) as [E1|E1].
  - (* every measurement *)
    assert (nn = 1) as -> by lia. rewrite Nat.mod_1_r. cbn [Nat.eqb].
    destruct (end_add g (s_mgr c) (fst x) (snd x) out Hs Hg Hne Hlt) as (m' & -> & Hs' & Ec).
    cbn [bind]. do 3 eexists. split; [reflexivity|]. cbn [s_mgr s_pol].
    split; auto. split; [lia|]. split; auto. split; [exact Hcnt|].
    split; [|eauto]. now rewrite Ec, Hcon', <- surjective_pairing.
  - assert (Hnn2 : 2 <= nn) by lia.
    destruct (Nat.eqb_spec nn 1) as [|_]; [lia|].
    pose proof (Nat.mod_upper_bound (length ys - 1) nn ltac:(lia)) as Hub.
    unfold count_up. rewrite Hcnt, Hmin.
    destruct (Z.eqb_spec (Z.of_nat ((length ys - 1) mod nn)) int_max); [lia|].
    cbn [bind p_count p_min].
    assert (Hfin : forall p : policy T, p_min p = n ->
      p_count p = (Z.of_nat ((length ys - 1) mod nn) + 1)%Z ->
      p_count (if Z.eqb (p_count p) n then set_count p 0 else p)
      = Z.of_nat (S (length ys - 1) mod nn)).
    { intros p Ep1 Ep2. rewrite Ep2.
      pose proof (Nat.div_mod (length ys - 1) nn ltac:(lia)) as Hdm.
      destruct (Z.eqb_spec (Z.of_nat ((length ys - 1) mod nn) + 1) n) as [Ez|Ez].
      - simpl. replace (S (length ys - 1) mod nn) with 0; auto.
        apply Nat.mod_unique with (S ((length ys - 1) / nn)); [lia|]. rewrite Nat.mul_succ_r. lia.
      - rewrite Ep2. replace (S (length ys - 1) mod nn) with (S ((length ys - 1) mod nn)); [lia|].
        apply Nat.mod_unique with ((length ys - 1) / nn); lia. }
    assert (Hmn : forall p : policy T, p_min p = n ->
      p_min (if Z.eqb (p_count p) n then set_count p 0 else p) = n).
    { intros p Ep1. destruct (Z.eqb (p_count p) n); auto. }
    set (p1 := Policy (Z.of_nat ((length ys - 1) mod nn) + 1)%Z n (p_period (s_pol c)) (p_last (s_pol c))).
    pose proof (Hfin p1 eq_refl eq_refl) as Hf1. pose proof (Hmn p1 eq_refl) as Hm1.
    unfold p1 in Hf1, Hm1. cbn [p_count p_min] in Hf1, Hm1. fold p1 in Hf1, Hm1.
    destruct (Nat.eqb_spec ((length ys - 1) mod nn) 0) as [Em|Em].
    + destruct (Z.eqb_spec (Z.of_nat ((length ys - 1) mod nn) + 1) 1) as [_|]; [|lia].
      destruct (end_add g (s_mgr c) (fst x) (snd x) out Hs Hg Hne Hlt) as (m' & -> & Hs' & Ec).
      cbn [bind]. do 3 eexists. split; [reflexivity|]. cbn [s_mgr s_pol].
      split; auto. split; [lia|]. fold p1. split; auto. split; auto.
      split; [|eauto]. now rewrite Ec, Hcon', <- surjective_pairing.
    + destruct (Z.eqb_spec (Z.of_nat ((length ys - 1) mod nn) + 1) 1) as [|_]; [lia|].
      destruct y as [ty vy].
      destruct (contents_last _ _ _ _ Hcon') as (k & Ek & _).
      rewrite Ek.
      rewrite (contents_max _ _ _ _ Hcon') in Hlt.
      destruct (end_move g (s_mgr c) _ _ _ (fst x) (snd x) k Hs Hcon' Ek Hlt) as (m' & -> & Hs' & Ec).
      cbn [bind]. do 3 eexists. split; [reflexivity|]. cbn [s_mgr s_pol].
      split; auto. split; [lia|]. fold p1. split; auto. split; auto.
      split; [|exists []; now rewrite app_nil_r].
      now rewrite app_nil_r, Ec, <- surjective_pairing.
Qed.

Lemma increasing_prefix (a b : list (T * V)) : increasing (a ++ b) -> increasing a.
Proof.
  induction a as [|x a IH]; cbn [app increasing]; auto. intros [A B]. split; auto.
  destruct a; auto.
Qed.

Lemma slerp_feed_spec g (c : curve) n out : forall ms,
  (1 <= n <= int_max)%Z -> let nn := Z.to_nat n in
  sane g (s_mgr c) -> (g + N.of_nat (length ms) < key_mod)%N ->
  p_min (s_pol c) = n -> p_count (s_pol c) = 0%Z -> contents (s_mgr c) = [] ->
  increasing ms ->
  exists g' c' out', slerp_feed g c ms out = Ok (g', c', out') /\
    sane g' (s_mgr c') /\ (g <= g' <= g + N.of_nat (length ms))%N /\
    p_min (s_pol c') = n /\ p_count (s_pol c') = slerp_count nn (length ms) /\
    contents (s_mgr c') = select (slerp_kept nn (length ms)) ms.
Proof.
  intros ms Hn nn Hs Hg Hmin Hcnt Hcon. induction ms as [|x ms IH] using rev_ind; intros Hinc.
  - do 3 eexists. split; [reflexivity|]. split; auto. split; [simpl; lia|]. split; auto.
    split; [|auto]. rewrite Hcnt. unfold slerp_count. destruct (nn =? 1); auto.
    simpl. rewrite Nat.mod_0_l; [reflexivity|lia].
  - rewrite app_length in Hg. simpl in Hg.
    destruct IH as (g1 & c1 & out1 & E1 & Hs1 & Hg1 & Hm1 & Hp1 & Hc1);
      [lia | now apply increasing_prefix in Hinc |].
    destruct (slerp_step g1 c1 n ms x out1 Hn Hs1) as (g2 & c2 & out2 & E2 & Hs2 & Hg2 & Hm2 & Hp2 & Hc2 & _);
      auto; [lia|].
    exists g2, c2, out2. split.
    { unfold slerp_feed in *. rewrite foldM_app, E1. cbn [bind foldM].
      cbn beta iota. rewrite E2. reflexivity. }
    split; auto. split; [rewrite app_length; simpl; lia|]. auto.
Qed.
End SlerpProof.

(** ** Hermite policy *)

Section HermiteProof.
Context {T V D : Type} `{TimeLaws T}.
Variable dzero : D.
Variable slope : T -> T -> V -> V -> D.
Variable tadd : T -> T -> T.
Local Notation curve := (hermite_curve T V D).
Local Notation kd := (knot_derivative dzero slope).
Local Notation knots_from := (knots_from dzero slope).
Local Notation knots := (knots dzero slope).
Local Notation temporary := (temporary dzero slope).

Lemma knots_from_snoc (l : list (T * V)) : forall prev y,
  let q := match rev l with [] => prev | z :: _ => Some z end in
  exists L, knots_from prev (l ++ [y]) = L ++ [(fst y, (snd y, kd q y None))] /\
    forall x, knots_from prev (l ++ [y; x]) =
      L ++ [(fst y, (snd y, kd q y (Some x))); (fst x, (snd x, kd (Some y) x None))].
Proof.
  induction l as [|a l IH]; intros prev y; cbn zeta.
  - exists []. split; reflexivity.
  - destruct (IH (Some a) y) as (L & E1 & E2). cbn zeta in E1, E2.
    assert (Eq : match rev (a :: l) with [] => prev | z :: _ => Some z end =
                 match rev l with [] => Some a | z :: _ => Some z end).
    { simpl. destruct (rev l); reflexivity. }
    rewrite Eq. cbn [app SamplingSpec.knots_from].
    exists ((fst a, (snd a, kd prev a (hd_error (l ++ [y])))) :: L). split.
    + now rewrite E1.
    + intros x. rewrite E2. cbn [app]. do 2 f_equal. destruct l; reflexivity.
Qed.

Lemma knots_snoc (l : list (T * V)) y :
  exists L, knots (l ++ [y]) = L ++ [(fst y, (snd y, kd (hd_error (rev l)) y None))] /\
    forall x, knots (l ++ [y; x]) =
      L ++ [(fst y, (snd y, kd (hd_error (rev l)) y (Some x))); (fst x, (snd x, kd (Some y) x None))].
Proof.
  destruct (knots_from_snoc l None y) as (L & A & B). exists L. cbn zeta in A, B.
  unfold SamplingSpec.knots. unfold hd_error. auto.
Qed.

Lemma knots_snoc2 (l : list (T * V)) z y :
  exists L d, knots (l ++ [z; y]) = L ++ [(fst z, (snd z, d)); (fst y, (snd y, kd (Some z) y None))] /\
    forall x, knots (l ++ [z; y; x]) =
      L ++ [(fst z, (snd z, d)); (fst y, (snd y, kd (Some z) y (Some x))); (fst x, (snd x, kd (Some y) x None))].
Proof.
  destruct (knots_snoc l z) as (L & _ & B). destruct (knots_snoc (l ++ [z]) y) as (L' & A' & B').
  rewrite hd_error_rev_snoc in A', B'. rewrite <- app_assoc in A'. cbn [app] in A'.
  pose proof (B y) as By. rewrite A' in By.
  replace (L ++ [(fst z, (snd z, kd (hd_error (rev l)) z (Some y))); (fst y, (snd y, kd (Some z) y None))])
    with ((L ++ [(fst z, (snd z, kd (hd_error (rev l)) z (Some y)))]) ++ [(fst y, (snd y, kd (Some z) y None))])
    in By by now rewrite <- app_assoc.
  apply app_inj_tail in By as [-> _].
  do 2 eexists. split.
  - rewrite A', <- app_assoc. reflexivity.
  - intros x. pose proof (B' x) as Bx. rewrite <- !app_assoc in Bx. cbn [app] in Bx. exact Bx.
Qed.

(** Relation between a curve, the policy and the measurements. *)
Record hinv (g : N) (c : curve) (n : Z) (p : T) (perm pending : list (T * V)) : Prop := {
  hi_sane : sane g (h_mgr c);
  hi_min : p_min (h_pol c) = n;
  hi_period : p_period (h_pol c) = p;
  hi_count : perm <> [] -> p_count (h_pol c) = Z.of_nat (length pending);
  hi_contents : contents (h_mgr c) = knots perm ++ temporary perm pending;
  hi_last : forall l y, perm = l ++ [y] -> p_last (h_pol c) = fst y;
  hi_nil : perm = [] -> pending = []
}.

Lemma temporary_nil perm : temporary perm [] = [].
Proof. reflexivity. Qed.

Lemma temporary_snoc l y r e :
  temporary (l ++ [y]) (r ++ [e]) =
  [(fst e, (snd e, match r with [] => kd (hd_error (rev l)) y None
                              | _ => slope (fst y) (fst e) (snd y) (snd e) end))].
Proof.
  unfold SamplingSpec.temporary. rewrite !rev_app_distr. cbn [rev app].
  destruct r as [|a r]; [reflexivity|].
  destruct (rev (a :: r)) eqn:E; [|reflexivity].
  apply (f_equal (@length _)) in E. rewrite rev_length in E. discriminate.
Qed.

(** Time of the newest measurement. *)
Lemma hinv_max g c n p perm pending l z :
  hinv g c n p perm pending -> perm ++ pending = l ++ [z] -> max_time (h_mgr c) = fst z /\
  contents (h_mgr c) <> [].
Proof.
  intros [Hs _ _ _ Hc _ Hnil] E.
  destruct perm as [|y perm _] using rev_ind.
  { rewrite (Hnil eq_refl) in E. simpl in E. now apply app_cons_not_nil in E. }
  destruct (knots_snoc perm y) as (L & Ek & _). rewrite Ek in Hc.
  destruct pending as [|e r _] using rev_ind.
  - rewrite app_nil_r in E. apply app_inj_tail in E as [_ ->].
    rewrite temporary_nil, app_nil_r in Hc. split; [now apply contents_max in Hc|].
    rewrite Hc. intros X. symmetry in X. now apply app_cons_not_nil in X.
  - rewrite app_assoc in E. apply app_inj_tail in E as [_ ->].
    rewrite temporary_snoc in Hc. split; [now apply contents_max in Hc|].
    rewrite Hc. intros X. symmetry in X. now apply app_cons_not_nil in X.
Qed.

Lemma default_extend_spec g (c : curve) n p perm x :
  hinv g c n p perm [] -> (g + 1 < key_mod)%N ->
  (perm <> [] -> tlt (max_time (h_mgr c)) (fst x) = true) ->
  exists c', default_extend dzero slope g c (fst x) (snd x) = Ok ((g + 1)%N, c') /\
    hinv (g + 1) c' n p (perm ++ [x]) [].
Proof.
  intros [Hs Hm Hp _ Hc Hl _] Hg Ht. rewrite temporary_nil, app_nil_r in Hc.
  assert (Hgoal : forall m2, sane (g + 1) m2 -> contents m2 = knots (perm ++ [x]) ->
    hinv (g + 1) (Hermite m2 (Policy 0 (p_min (h_pol c)) (p_period (h_pol c)) (fst x))) n p (perm ++ [x]) []).
  { intros m2 Hs2 Hc2. split; cbn [h_mgr h_pol p_min p_count p_period p_last]; auto.
    - now rewrite temporary_nil, app_nil_r.
    - intros l y E. now apply app_inj_tail in E as [_ ->]. }
  unfold default_extend.
  destruct perm as [|y perm _] using rev_ind.
  { simpl in Hc. pose proof Hc as En. apply contents_nil in En. rewrite En. cbn [bind].
    destruct (end_insert g (h_mgr c) (fst x) (snd x, dzero) Hs Hg) as (m2 & -> & Hs2 & Hc2); auto.
    cbn [bind]. eexists. split; [reflexivity|]. apply Hgoal; auto. rewrite Hc2, Hc. reflexivity. }
  assert (Ht' : tlt (max_time (h_mgr c)) (fst x) = true).
  { apply Ht. intros E. symmetry in E. now apply app_cons_not_nil in E. }
  clear Ht. rewrite <- app_assoc in Hgoal. cbn [app] in Hgoal.
  destruct perm as [|z perm _] using rev_ind.
  - (* one coefficient *)
    cbn [app] in *. pose proof Hc as Hc0. unfold contents in Hc0.
    destruct (nodes (h_mgr c)) as [|k [|k' l]] eqn:En; try discriminate.
    simpl in Hc0. injection Hc0 as E1 E2. rewrite E2. cbn [fst snd]. rewrite E1.
    destruct (end_update g (h_mgr c) [] (fst y) (snd y, kd None y None)
      (snd y, slope (fst y) (fst x) (snd y) (snd x)) k Hs Hc) as (m1 & -> & Hs1 & Hc1).
    { now rewrite En. }
    cbn [bind app] in *.
    destruct (end_insert g m1 (fst x) (snd x, slope (fst y) (fst x) (snd y) (snd x)) Hs1 Hg)
      as (m2 & -> & Hs2 & Hc2).
    { right. rewrite (contents_max m1 [] _ _ Hc1). rewrite (contents_max (h_mgr c) [] _ _ Hc) in Ht'. auto. }
    cbn [bind]. eexists. split; [reflexivity|]. rewrite Hc1 in Hc2. cbn [app] in Hc2.
    apply Hgoal; auto.
  - (* at least two *)
    rewrite <- app_assoc in Hc, Hgoal. cbn [app] in Hc, Hgoal. 
    destruct (knots_snoc2 perm z y) as (L & d & Ek & Ek'). rewrite Ek in Hc.
    destruct (contents_pair _ _ _ _ _ _ Hc) as (n0 & n1 & Eg & _ & A0 & B0 & A1 & B1).
    assert (Hc' : contents (h_mgr c) = (L ++ [(fst z, (snd z, d))]) ++ [(fst y, (snd y, kd (Some z) y None))])
      by now rewrite <- app_assoc.
    destruct (contents_last _ _ _ _ Hc') as (k & Elast & Hik & Ak & Bk).
    assert (Hk1 : n1 = k).
    { pose proof Eg as Eg'. apply get_at_some in Eg' as (a & b & En & _ & Hd); [|apply Hs].
      pose proof (c_sorted _ (proj1 Hs)) as Hst.
      eapply sorted_unique; [apply cons_sorted; apply Hs | | exact Hik | | ].
      - rewrite En, in_app_iff. simpl. auto.
      - rewrite A1. apply teq_refl.
      - rewrite Ak. apply teq_refl. }
    subst n1.
    destruct (nodes (h_mgr c)) as [|k0 [|k1 kl]] eqn:En.
    { destruct Hik. }
    { pose proof (f_equal (@length _) Hc) as X. unfold contents in X. rewrite En, app_length in X.
      simpl in X. lia. }
    rewrite <- En in *. rewrite Elast, Ak, Eg, B0, B1, A0, Ak. cbn [fst snd].
    destruct (end_update g (h_mgr c) _ _ _ (snd y, slope (fst z) (fst x) (snd z) (snd x)) k Hs Hc' Elast)
      as (m1 & -> & Hs1 & Hc1).
    cbn [bind].
    destruct (end_insert g m1 (fst x) (snd x, slope (fst y) (fst x) (snd y) (snd x)) Hs1 Hg)
      as (m2 & -> & Hs2 & Hc2).
    { right. rewrite (contents_max m1 _ _ _ Hc1). rewrite (contents_max (h_mgr c) _ _ _ Hc') in Ht'. auto. }
    cbn [bind]. eexists. split; [reflexivity|]. 
    rewrite Hc1, <- !app_assoc in Hc2. cbn [app] in Hc2.
    rewrite <- !app_assoc. cbn [app]. apply Hgoal; auto. rewrite Ek'. exact Hc2.
Qed.

Lemma interpolation_extend_spec g (c : curve) n p perm pending x :
  hinv g c n p perm pending -> (g + 1 < key_mod)%N -> perm <> [] ->
  (Z.of_nat (length pending) < int_max)%Z ->
  tlt (max_time (h_mgr c)) (fst x) = true ->
  (forall l y, perm = l ++ [y] -> tlt (fst y) (fst x) = true) ->
  exists c', interpolation_extend slope g c (fst x) (snd x) = Ok ((g + 1)%N, c') /\
    hinv (g + 1) c' n p perm (pending ++ [x]).
Proof.
  intros [Hs Hm Hp Hcnt Hc Hl Hnil] Hg Hne Hcap Ht Hty.
  destruct perm as [|y perm _] using rev_ind; [congruence|].
  specialize (Hty _ _ eq_refl).
  specialize (Hcnt Hne).
  destruct (knots_snoc perm y) as (L & Ek & _).
  assert (Hgoal : forall m2, sane (g + 1) m2 ->
    contents m2 = knots (perm ++ [y]) ++ temporary (perm ++ [y]) (pending ++ [x]) ->
    hinv (g + 1) (Hermite m2 (Policy (p_count (h_pol c) + 1) (p_min (h_pol c)) (p_period (h_pol c))
      (p_last (h_pol c)))) n p (perm ++ [y]) (pending ++ [x])).
  { intros m2 Hs2 Hc2. split; cbn [h_mgr h_pol p_min p_count p_period p_last]; auto.
    - intros _. rewrite Hcnt, app_length. simpl. lia.
    - intros E. congruence. }
  assert (Hup : count_up (h_pol c) = Ok (Policy (p_count (h_pol c) + 1) (p_min (h_pol c)) (p_period (h_pol c))
      (p_last (h_pol c)))).
  { unfold count_up. rewrite Hcnt. destruct (Z.eqb_spec (Z.of_nat (length pending)) int_max); [lia|reflexivity]. }
  unfold interpolation_extend. rewrite Hup, Hcnt. rewrite Hcnt in Hgoal. clear Hup.
  destruct pending as [|e r _] using rev_ind.
  - rewrite temporary_nil, app_nil_r, Ek in Hc.
    destruct (contents_last _ _ _ _ Hc) as (k & Elast & _ & Ak & Bk).
    rewrite Elast. cbn [length Z.of_nat Z.eqb bind]. rewrite Bk. cbn [snd].
    destruct (end_insert g (h_mgr c) (fst x) (snd x, kd (hd_error (rev perm)) y None) Hs Hg)
      as (m2 & -> & Hs2 & Hc2); auto.
    cbn [bind]. eexists. split; [reflexivity|]. apply Hgoal; auto.
    rewrite temporary_snoc, Ek, Hc2, Hc. reflexivity.
  - rewrite temporary_snoc, Ek in Hc.
    set (de := match r with [] => _ | _ => _ end) in Hc.
    destruct (contents_last _ _ _ _ Hc) as (k & Elast & _ & Ak & Bk).
    rewrite Elast.
    destruct (Z.eqb_spec (Z.of_nat (length (r ++ [e]))) 0) as [E0|_];
      [rewrite app_length in E0; simpl in E0; lia|].
    rewrite Ak. pose proof Hc as Hc'. rewrite <- app_assoc in Hc'. cbn [app] in Hc'.
    destruct (contents_pair _ _ _ _ _ _ Hc') as (n0 & n1 & -> & _ & A0 & B0 & A1 & B1).
    rewrite A1, A0, B0. cbn [fst].
    destruct (end_remove g (h_mgr c) _ _ _ Hs Hc) as (m1 & -> & Hs1 & Hc1).
    cbn [bind].
    destruct (end_insert g m1 (fst x) (snd x, slope (fst y) (fst x) (snd y) (snd x)) Hs1 Hg)
      as (m2 & -> & Hs2 & Hc2).
    { right. now rewrite (contents_max m1 _ _ _ Hc1). }
    cbn [bind]. eexists. split; [reflexivity|]. apply Hgoal; auto.
    rewrite temporary_snoc, Ek, Hc2, Hc1. do 4 f_equal.
    destruct r; reflexivity.
Qed.

Lemma hermite_step g (c : curve) n p perm pending x :
  (1 <= n)%Z ->
  hinv g c n p perm pending -> (g + 1 < key_mod)%N ->
  (Z.of_nat (length pending) < int_max)%Z \/ 
    (Z.of_nat (length pending) <= int_max /\ n <= Z.of_nat (length pending) /\
      forall l y, perm = l ++ [y] -> tlt (tadd (fst y) p) (fst x) = true)%Z ->
  (forall l z, perm ++ pending = l ++ [z] -> tlt (fst z) (fst x) = true) ->
  (forall l y, perm = l ++ [y] -> tlt (fst y) (fst x) = true) ->
  let '(perm', pending') := sample tadd (Z.to_nat n) p (perm, pending) x in
  exists c', hermite_extend_one dzero slope tadd g c (fst x) (snd x) = Ok ((g + 1)%N, c') /\
    hinv (g + 1) c' n p perm' pending'.
Proof.
  intros Hn Hi Hg Hcap Hnew Hty. unfold hermite_extend_one, sample.
  destruct perm as [|y perm _] using rev_ind.
  { pose proof (hi_nil _ _ _ _ _ _ Hi eq_refl). subst pending. cbn [rev].
    assert (Ee : empty (h_mgr c) = true).
    { rewrite contents_empty, (hi_contents _ _ _ _ _ _ Hi). reflexivity. }
    rewrite Ee, orb_true_r. cbn [negb].
    apply default_extend_spec; auto. }
  rewrite rev_app_distr. cbn [rev app].
  assert (Hex : exists l z, (perm ++ [y]) ++ pending = l ++ [z]).
  { destruct pending as [|e r _] using rev_ind; [rewrite app_nil_r; eauto|].
    exists ((perm ++ [y]) ++ r), e. now rewrite app_assoc. }
  destruct Hex as (l & z & El).
  destruct (hinv_max _ _ _ _ _ _ _ _ Hi El) as [Emax Hne].
  pose proof (Hnew _ _ El) as Hlt. specialize (Hty _ _ eq_refl).
  assert (Ee : empty (h_mgr c) = false).
  { rewrite contents_empty. destruct (contents (h_mgr c)); congruence. }
  assert (Hpne : perm ++ [y] <> []).
  { intros E. symmetry in E. now apply app_cons_not_nil in E. }
  rewrite Ee, Emax, Hlt. cbn [negb orb].
  rewrite (hi_min _ _ _ _ _ _ Hi), (hi_count _ _ _ _ _ _ Hi Hpne), (hi_period _ _ _ _ _ _ Hi),
    (hi_last _ _ _ _ _ _ Hi _ _ eq_refl).
  assert (Ez : Z.leb n (Z.of_nat (length pending)) = (Z.to_nat n <=? length pending)).
  { destruct (Z.leb_spec n (Z.of_nat (length pending))), (Nat.leb_spec (Z.to_nat n) (length pending));
    auto; lia. }
  rewrite Ez.
  destruct ((Z.to_nat n <=? length pending) && tlt (tadd (fst y) p) (fst x)) eqn:Eb.
  - apply andb_true_iff in Eb as [Eb _]. apply Nat.leb_le in Eb.
    destruct pending as [|e r _] using rev_ind; [simpl in Eb; lia|].
    destruct Hi as [Hs Hm Hp Hcnt Hc Hl Hnil]. rewrite temporary_snoc in Hc.
    destruct (contents_last _ _ _ _ Hc) as (k & -> & _ & -> & _).
    destruct (end_remove g (h_mgr c) _ _ _ Hs Hc) as (m1 & -> & Hs1 & Hc1).
    cbn [bind].
    destruct (knots_snoc perm y) as (L & Ek & _).
    assert (E : hinv g (Hermite m1 (Policy 0 n p (fst y))) n p (perm ++ [y]) []).
    { split; cbn [h_mgr h_pol p_min p_count p_period p_last]; auto.
      - now rewrite temporary_nil, app_nil_r.
      - intros l0 y0 E. now apply app_inj_tail in E as [_ ->]. }
    destruct (default_extend_spec g _ n p (perm ++ [y]) x E Hg) as (c' & Ec & Hi').
    { intros _. cbn [h_mgr]. rewrite Ek in Hc1. now rewrite (contents_max _ _ _ _ Hc1). }
    exists c'. split; auto. rewrite <- Ec. unfold default_extend. cbn [h_mgr h_pol p_min p_period].
    now rewrite Hm, Hp.
  - apply interpolation_extend_spec; auto.
    + destruct Hcap as [Hcap|(_ & Hc1 & Hc2)]; auto. exfalso.
      rewrite (Hc2 _ _ eq_refl) in Eb.
      apply andb_false_iff in Eb as [Eb|Eb]; [|discriminate]. apply Nat.leb_gt in Eb. lia.
    + now rewrite Emax.
    + intros l0 y0 E. now apply app_inj_tail in E as [_ ->].
Qed.

(** ** Sequences of measurements *)

Lemma hermite_extend_app : forall ts1 vs1 ts2 vs2 g (c : curve),
  length ts1 = length vs1 ->
  hermite_extend dzero slope tadd g c (ts1 ++ ts2) (vs1 ++ vs2) =
  let* (g', c') := hermite_extend dzero slope tadd g c ts1 vs1 in
  hermite_extend dzero slope tadd g' c' ts2 vs2.
Proof.
  induction ts1 as [|t ts1 IH]; intros [|v vs1] ts2 vs2 g c; simpl; try discriminate; auto.
  intros [= E]. destruct (hermite_extend_one dzero slope tadd g c t v) as [[g' c']| | |]; auto.
  cbn [bind]. now rewrite IH.
Qed.

Lemma increasing_ends : forall (l : list (T * V)) y x, increasing (y :: l ++ [x]) -> tlt (fst y) (fst x) = true.
Proof.
  induction l as [|a l IH]; intros y x.
  - cbn. tauto.
  - cbn [app increasing]. intros [A B]. eapply tlt_trans; [exact A|]. apply IH. exact B.
Qed.

Lemma increasing_suffix (a b : list (T * V)) : increasing (a ++ b) -> increasing b.
Proof. induction a as [|x a IH]; cbn [app increasing]; tauto. Qed.

Lemma sampled_snoc n p (ms : list (T * V)) x :
  sampled tadd n p (ms ++ [x]) = sample tadd n p (sampled tadd n p ms) x.
Proof. unfold sampled. now rewrite fold_left_app. Qed.

(** The pending measurements are those after the last permanent one, and each
    permanent one is at least [n] measurements and more than [p] after the one
    before. *)
Lemma sampled_shape n p (ms : list (T * V)) :
  let '(perm, pending) := sampled tadd n p ms in
  (ms = [] /\ perm = [] /\ pending = []) \/
  (exists perm0 y l, perm = perm0 ++ [y] /\ ms = l ++ y :: pending).
Proof.
  induction ms as [|x ms IH] using rev_ind; [left; auto|].
  rewrite sampled_snoc. destruct (sampled tadd n p ms) as [perm pending]. unfold sample.
  destruct IH as [(-> & -> & ->)|(perm0 & y & l & -> & ->)].
  - right. exists [], x, []. auto.
  - rewrite rev_app_distr. cbn [rev app].
    destruct ((n <=? length pending) && tlt (tadd (fst y) p) (fst x)); right.
    + exists (perm0 ++ [y]), x, (l ++ y :: pending). auto.
    + exists perm0, y, l. split; auto. now rewrite <- app_assoc.
Qed.

Lemma sampled_spacing n p (ms : list (T * V)) :
  let '(perm, pending) := sampled tadd n p ms in
  forall l a b r, perm = l ++ a :: b :: r ->
    tlt (tadd (fst a) p) (fst b) = true /\
    exists u mid v, ms = u ++ a :: mid ++ b :: v /\ n <= length mid.
Proof.
  induction ms as [|x ms IH] using rev_ind.
  { intros [|z l] a b r; discriminate. }
  rewrite sampled_snoc. pose proof (sampled_shape n p ms) as Hsh.
  destruct (sampled tadd n p ms) as [perm pending]. unfold sample.
  assert (Hold : forall l a b r, perm = l ++ a :: b :: r ->
    tlt (tadd (fst a) p) (fst b) = true /\
    exists u mid v, ms ++ [x] = u ++ a :: mid ++ b :: v /\ n <= length mid).
  { intros l a b r E. destruct (IH l a b r E) as (Ht & u & mid & v & -> & Hm).
    split; auto. exists u, mid, (v ++ [x]). split; auto. rewrite <- app_assoc. cbn [app].
    now rewrite <- app_assoc. }
  destruct Hsh as [(-> & -> & ->)|(perm0 & y & l0 & -> & ->)].
  - cbn [rev app]. intros l a b r E. destruct l as [|? [|? ?]]; discriminate.
  - rewrite rev_app_distr. cbn [rev app].
    destruct ((n <=? length pending) && tlt (tadd (fst y) p) (fst x)) eqn:Eb; [|exact Hold].
    apply andb_true_iff in Eb as [Eb Et]. apply Nat.leb_le in Eb.
    intros l a b r E. destruct r as [|z r _] using rev_ind.
    + replace (l ++ [a; b]) with ((l ++ [a]) ++ [b]) in E by now rewrite <- app_assoc.
      apply app_inj_tail in E as [E ->]. apply app_inj_tail in E as [_ ->].
      split; auto. exists l0, pending, []. split; auto. now rewrite <- app_assoc.
    + replace (l ++ a :: b :: r ++ [z]) with ((l ++ a :: b :: r) ++ [z]) in E
        by now rewrite <- app_assoc.
      apply app_inj_tail in E as [E ->]. now apply (Hold l a b r).
Qed.

Lemma hermite_feed_spec n p : forall (ms : list (T * V)) g (c : curve),
  (1 <= n)%Z -> hinv g c n p [] [] -> (g + N.of_nat (length ms) < key_mod)%N ->
  increasing ms ->
  (forall a x b, ms = a ++ x :: b ->
     let pending := snd (sampled tadd (Z.to_nat n) p a) in
     Z.of_nat (length pending) < int_max \/
     (Z.of_nat (length pending) <= int_max /\ n <= Z.of_nat (length pending) /\
      forall l y, fst (sampled tadd (Z.to_nat n) p a) = l ++ [y] ->
                  tlt (tadd (fst y) p) (fst x) = true))%Z ->
  exists c', hermite_extend dzero slope tadd g c (map fst ms) (map snd ms) =
      Ok ((g + N.of_nat (length ms))%N, c') /\
    hinv (g + N.of_nat (length ms)) c' n p
      (fst (sampled tadd (Z.to_nat n) p ms)) (snd (sampled tadd (Z.to_nat n) p ms)).
Proof.
  induction ms as [|x ms IH] using rev_ind; intros g c Hn Hi Hg Hinc Hcap.
  - exists c. rewrite N.add_0_r. auto.
  - rewrite app_length in Hg. simpl in Hg.
    destruct (IH g c Hn Hi) as (c1 & E1 & Hi1); [lia|now apply increasing_prefix in Hinc| |].
    { intros a y b E. apply (Hcap a y (b ++ [x])). rewrite E, <- app_assoc. reflexivity. }
    rewrite !map_app, hermite_extend_app, E1 by now rewrite !map_length.
    cbn [map hermite_extend bind].
    specialize (Hcap ms x [] eq_refl). cbn zeta in Hcap.
    rewrite sampled_snoc. pose proof (sampled_shape (Z.to_nat n) p ms) as Hsh.
    destruct (sampled tadd (Z.to_nat n) p ms) as [perm pending] eqn:Es. cbn [fst snd] in *.
    pose proof (hermite_step (g + N.of_nat (length ms)) c1 n p perm pending x Hn Hi1) as Hst.
    rewrite app_length. cbn [length].
    replace (g + N.of_nat (length ms + 1))%N with (g + N.of_nat (length ms) + 1)%N by lia.
    destruct (sample tadd (Z.to_nat n) p (perm, pending) x) as [perm' pending'].
    destruct Hst as (c' & E2 & Hi2).
    + lia.
    + exact Hcap.
    + intros l z E. destruct Hsh as [(-> & -> & ->)|(perm0 & y & l0 & -> & ->)].
      { now apply app_cons_not_nil in E. }
      assert (El : exists l', l0 ++ y :: pending = l' ++ [z]).
      { destruct pending as [|e r _] using rev_ind.
        - rewrite app_nil_r in E. apply app_inj_tail in E as [_ ->]. eauto.
        - rewrite app_assoc in E. apply app_inj_tail in E as [_ ->].
          exists (l0 ++ y :: r). now rewrite <- app_assoc. }
      destruct El as (l' & El). rewrite El, <- app_assoc in Hinc.
      apply increasing_snoc in Hinc. tauto.
    + intros l y0 E. destruct Hsh as [(-> & -> & ->)|(perm0 & y & l0 & -> & ->)].
      { now apply app_cons_not_nil in E. }
      apply app_inj_tail in E as [_ ->]. rewrite <- app_assoc in Hinc.
      apply increasing_suffix in Hinc. cbn [app] in Hinc. now apply increasing_ends in Hinc.
    + rewrite E2. cbn [bind]. eauto.
Qed.

(** Without a period, every (n+1)-st measurement is permanent. *)
Lemma sampled_no_period n p (ms : list (T * V)) :
  (forall t, tadd t p = t) -> increasing ms ->
  fst (sampled tadd n p ms) = select (fun i => i mod (S n) =? 0) ms /\
  length (snd (sampled tadd n p ms)) = (length ms - 1) mod S n.
Proof.
  intros Hp. induction ms as [|x ms IH] using rev_ind; intros Hinc.
  { cbn [fold_left sampled fst snd length]. rewrite Nat.mod_0_l by lia. auto. }
  destruct (IH ltac:(now apply increasing_prefix in Hinc)) as [E1 E2]. clear IH.
  rewrite sampled_snoc, select_snoc, <- E1. pose proof (sampled_shape n p ms) as Hsh.
  destruct (sampled tadd n p ms) as [perm pending]. cbn [fst snd] in *. unfold sample.
  rewrite app_length. cbn [length].
  destruct Hsh as [(-> & -> & ->)|(perm0 & y & l0 & -> & ->)].
  { cbn [rev fst snd length Nat.add Nat.sub]. rewrite Nat.mod_0_l by lia. auto. }
  rewrite rev_app_distr. cbn [rev app]. rewrite Hp.
  assert (Hlt : tlt (fst y) (fst x) = true).
  { rewrite <- app_assoc in Hinc. apply increasing_suffix in Hinc. cbn [app] in Hinc.
    now apply increasing_ends in Hinc. }
  rewrite Hlt, andb_true_r.
  set (k := length (l0 ++ y :: pending) - 1) in *.
  assert (Ek : length (l0 ++ y :: pending) = S k) by (unfold k; rewrite app_length; simpl; lia).
  rewrite Ek. replace (S k + 1 - 1) with (S k) by lia.
  pose proof (Nat.div_mod k (S n) ltac:(lia)) as Hd.
  pose proof (Nat.mod_upper_bound k (S n) ltac:(lia)) as Hu.
  rewrite E2. destruct (Nat.leb_spec n (k mod S n)) as [Hge|Hlt'].
  - assert (Em : S k mod S n = 0).
    { symmetry. apply Nat.mod_unique with (S (k / S n)); [lia|]. rewrite Nat.mul_succ_r. lia. }
    rewrite Em. cbn [Nat.eqb fst snd length]. auto.
  - assert (Em : S k mod S n = S (k mod S n)).
    { symmetry. apply Nat.mod_unique with (k / S n); lia. }
    rewrite Em. cbn [Nat.eqb fst snd]. rewrite app_nil_r, app_length. cbn [length]. split; auto. lia.
Qed.

Lemma every_count {A} n (ms : list A) : ms <> [] ->
  length (select (fun i => i mod (S n) =? 0) ms) = 1 + (length ms - 1) / S n.
Proof.
  induction ms as [|x ms IH] using rev_ind; [congruence|]. intros _.
  rewrite select_snoc, !app_length. cbn [length].
  destruct ms as [|z ms]; [cbn [length Nat.add Nat.sub]; rewrite Nat.mod_0_l, Nat.div_small by lia; reflexivity|].
  rewrite IH by congruence. set (l := z :: ms).
  replace (length l + 1 - 1) with (S (length l - 1)) by (unfold l; simpl; lia).
  rewrite (div_succ _ (S n)) by lia.
  replace (S (length l - 1)) with (length l) by (unfold l; simpl; lia).
  destruct (length l mod S n =? 0); simpl length; lia.
Qed.

Lemma ceil_div_spec a k : 1 <= k -> ceil_div a k = a / k + if a mod k =? 0 then 0 else 1.
Proof.
  intros Hk. destruct a as [|a].
  - rewrite ceil_div_0, Nat.div_small, Nat.mod_0_l by lia. reflexivity.
  - rewrite ceil_div_succ, div_succ by auto. destruct (S a mod k =? 0); lia.
Qed.

Lemma knots_length : forall (l : list (T * V)) prev, length (knots_from prev l) = length l.
Proof. induction l; intros; simpl; auto. Qed.

Lemma knots_data : forall (l : list (T * V)) prev,
  map (fun k => (fst k, fst (snd k))) (knots_from prev l) = l.
Proof. induction l as [|[t v] l IH]; intros; simpl; auto. now rewrite IH. Qed.

Lemma temporary_length perm pending : perm <> [] ->
  length (temporary perm pending) = if length pending =? 0 then 0 else 1.
Proof.
  intros Hp. destruct perm as [|y perm _] using rev_ind; [congruence|].
  destruct pending as [|e r _] using rev_ind; [reflexivity|].
  rewrite temporary_snoc, app_length. simpl. destruct (length r + 1) eqn:E; [lia|reflexivity].
Qed.

Lemma temporary_data perm pending : perm <> [] ->
  map (fun k => (fst k, fst (snd k))) (temporary perm pending) =
  match rev pending with [] => [] | e :: _ => [e] end.
Proof.
  intros Hp. destruct perm as [|y perm _] using rev_ind; [congruence|].
  destruct pending as [|e r _] using rev_ind; [reflexivity|].
  rewrite temporary_snoc, rev_app_distr. simpl. now destruct e.
Qed.
End HermiteProof.

(** ** Bulk insertion behind the end *)

Section Bulk.
Context {T C : Type} `{TimeLaws T}.

Lemma insert_loop_end : forall (tcs : list (T * C)) g (m : mgr T C) out,
  sane g m -> (g + N.of_nat (length tcs) < key_mod)%N -> increasing (contents m ++ tcs) ->
  exists m' ks, insert_loop g m tcs out = Ok ((g + N.of_nat (length tcs))%N, m', out ++ ks) /\
    sane (g + N.of_nat (length tcs)) m' /\ contents m' = contents m ++ tcs /\
    length ks = length tcs.
Proof.
  induction tcs as [|[t c] tcs IH]; intros g m out Hs Hg Hinc.
  - exists m, []. rewrite N.add_0_r, !app_nil_r. auto.
  - cbn [length insert_loop] in *.
    destruct (end_insert g m t c Hs) as (m1 & -> & Hs1 & Hc1); [lia| |].
    { destruct (contents m) as [|x l _] eqn:Ec using rev_ind; [auto|]. right.
      destruct x as [tx cx]. rewrite (contents_max _ _ _ _ Ec).
      rewrite <- app_assoc in Hinc. apply increasing_suffix in Hinc. cbn in Hinc. tauto. }
    cbn [bind].
    destruct (IH (g + 1)%N m1 (out ++ [(g + 1)%N]) Hs1) as (m' & ks & -> & Hs' & Hc' & Hl); [lia| |].
    { rewrite Hc1, <- app_assoc. exact Hinc. }
    replace (g + N.of_nat (S (length tcs)))%N with (g + 1 + N.of_nat (length tcs))%N by lia.
    exists m', ((g + 1)%N :: ks). rewrite <- app_assoc. split; auto. split; auto.
    rewrite Hc', Hc1, <- app_assoc. split; auto. simpl. now rewrite Hl.
Qed.

Lemma insert_coefficients_end : forall (ts : list T) (cs : list C) g m out,
  sane g m -> length ts = length cs -> (g + N.of_nat (length ts) < key_mod)%N ->
  increasing (contents m ++ combine ts cs) ->
  exists m' ks, insert_coefficients g m ts cs out = Ok ((g + N.of_nat (length ts))%N, m', out ++ ks) /\
    sane (g + N.of_nat (length ts)) m' /\ contents m' = contents m ++ combine ts cs /\
    length ks = length ts.
Proof.
  intros ts cs g m out Hs Hl Hg Hinc. unfold insert_coefficients. rewrite Hl, Nat.eqb_refl, <- Hl.
  assert (El : length (combine ts cs) = length ts) by (rewrite combine_length; lia).
  rewrite <- El in *. now apply insert_loop_end.
Qed.

Lemma increasing_fst {V W} : forall (l : list (T * V)) (l' : list (T * W)),
  map fst l = map fst l' -> increasing l -> increasing l'.
Proof.
  induction l as [|a l IH]; intros [|b l']; simpl; try discriminate; auto.
  intros [= E1 E2] [A B]. split; [|now apply IH].
  destruct l as [|c l], l' as [|d l']; try discriminate; auto.
  simpl in E2. injection E2 as E2 _. now rewrite <- E1, <- E2.
Qed.
End Bulk.

Lemma fit_coefficients_length {T V D} (slope : T -> T -> V -> V -> D) d0 d1 :
  forall tvs prev, length (fit_coefficients slope d0 d1 prev tvs) = length tvs.
Proof. induction tvs as [|[t v] r IH]; intros; simpl; auto. Qed.

Lemma fit_coefficients_values {T V D} (slope : T -> T -> V -> V -> D) d0 d1 :
  forall tvs prev, map fst (fit_coefficients slope d0 d1 prev tvs) = map snd tvs.
Proof. induction tvs as [|[t v] r IH]; intros; simpl; auto. now rewrite IH. Qed.

Lemma map_fst_combine {A B} : forall (a : list A) (b : list B), length a = length b -> map fst (combine a b) = a.
Proof. induction a; intros [|? ?]; simpl; try discriminate; auto. intros [= E]. now rewrite IHa. Qed.
Lemma map_snd_combine {A B} : forall (a : list A) (b : list B), length a = length b -> map snd (combine a b) = b.
Proof. induction a; intros [|? ?]; simpl; try discriminate; auto. intros [= E]. now rewrite IHa. Qed.

(** Contents after a Hermite fit. *)
Lemma hermite_fit_spec {T V D} `{TimeLaws T} (slope : T -> T -> V -> V -> D)
    g (c : hermite_curve T V D) ts vs d0 d1 out :
  length ts = length vs -> increasing (combine ts vs) -> (g + N.of_nat (length ts) < key_mod)%N ->
  exists m' ks, hermite_fit_with_derivatives slope g c ts vs d0 d1 out =
      Ok ((g + N.of_nat (length ts))%N, Hermite m' (h_pol c), out ++ ks) /\
    sane (g + N.of_nat (length ts)) m' /\
    contents m' = combine ts (fit_coefficients slope d0 d1 None (combine ts vs)).
Proof.
  intros Hl Hinc Hg. unfold hermite_fit_with_derivatives. rewrite Hl, Nat.eqb_refl, <- Hl. cbn [negb].
  set (cs := fit_coefficients slope d0 d1 None (combine ts vs)).
  assert (Lc : length ts = length cs).
  { unfold cs. rewrite fit_coefficients_length, combine_length. lia. }
  destruct (insert_coefficients_end ts cs g (clear (h_mgr c)) out) as (m' & ks & -> & Hs & Hc & _); auto.
  - apply sane_clear.
  - cbn [contents clear nodes map app]. eapply increasing_fst; [|exact Hinc].
    now rewrite !map_fst_combine.
  - cbn [bind]. eauto.
Qed.
