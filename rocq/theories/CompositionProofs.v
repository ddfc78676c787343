(** * Proofs about the composition curve, over the reals *)

From Coquelicot Require Import Coquelicot.
From Coq Require Import List Reals Lra Lia Bool Arith NArith ZArith Permutation Sorting.Sorted.
From Verif Require Import Base TimeOrder TimeInst KeyGen Manager ManagerSpec ManagerProofs ManagerProofs2
  ManagerProofs3 Num Sampling SamplingSpec SamplingProofs HermiteE3Proofs Discrete DiscreteSpec DiscreteProofs
  Composition.
Import ListNotations.
Local Open Scope R_scope.

Lemma mapM_ok {A B} (f : A -> outcome B) l bs : mapM f l = Ok bs <-> Forall2 (fun a b => f a = Ok b) l bs.
Proof.
  revert bs. induction l as [|a l IH]; intros bs; simpl.
  - split; [intros [= <-]; constructor|]. intros X. now inversion X.
  - split.
    + intros E. apply bind_ok_inv in E as (b & Eb & E). apply bind_ok_inv in E as (r & Er & E).
      injection E as <-. constructor; auto. now apply IH.
    + intros X. inversion X as [|? b ? r Eb Hr]; subst. rewrite Eb. simpl. apply IH in Hr. now rewrite Hr.
Qed.

Lemma mapM_total {A B} (f : A -> outcome B) l :
  (forall a, In a l -> exists b, f a = Ok b) -> exists bs, mapM f l = Ok bs.
Proof.
  induction l as [|a l IH]; intros Hl; simpl; [eauto|].
  destruct (Hl a) as (b & ->); [now left|]. destruct IH as (bs & ->); [intros; apply Hl; now right|].
  simpl. eauto.
Qed.

Section Extend.
Context {V : Type}.
Local Notation curve := (@slerp_curve R V).
Local Notation mgr := (mgr R V).

Lemma contents_increasing (m : mgr) : consistent m -> increasing (contents m).
Proof.
  intros Hc. pose proof (c_sorted _ Hc) as Hs. rewrite <- contents_times in Hs.
  induction (contents m) as [|x l IH]; [exact I|]. simpl in Hs. inversion Hs as [|? ? Hs' Hf]; subst.
  simpl. split; [|auto]. destruct l; auto. simpl in Hf. now inversion Hf.
Qed.

(** Keys only go up. *)
Lemma insert_loop_gen tcs : forall g (m : mgr) out g' m' out',
  (g + N.of_nat (length tcs) < key_mod)%N -> insert_loop g m tcs out = Ok (g', m', out') ->
  (g <= g' <= g + N.of_nat (length tcs))%N.
Proof.
  induction tcs as [|[t v] r IH]; intros g m out g' m' out' Hg E.
  - injection E as <- _ _. simpl. lia.
  - cbn [insert_loop length] in *. rewrite Nat2N.inj_succ in *.
    apply bind_ok_inv in E as ([[g1 m1] k1] & E1 & E).
    assert (X : (g <= g1 <= g + 1)%N).
    { unfold insert_coefficient in E1. destruct (scan_at_time _ _).
      - apply bind_ok_inv in E1 as (? & _ & E1). injection E1 as <- _ _. lia.
      - destruct (map_insert _ _) as [[? ?] ?]. injection E1 as <- _ _. rewrite next_key_nowrap; lia. }
    apply IH in E; lia.
Qed.

Lemma extend_gen g (c : curve) ts vs out g' c' out' :
  (g + N.of_nat (length ts) < key_mod)%N -> slerp_extend g c ts vs out = Ok (g', c', out') ->
  (g <= g' <= g + N.of_nat (length ts))%N.
Proof.
  intros Hg E. unfold slerp_extend in E.
  destruct (Nat.eqb_spec (length ts) (length vs)) as [El|]; [|discriminate]. cbn [negb] in E.
  assert (X : forall E : (let* (g', m', out') := insert_coefficients g (s_mgr c) ts vs out in
    Ok (g', Slerp m' (s_pol c), out')) = Ok (g', c', out'), (g <= g' <= g + N.of_nat (length ts))%N).
  { intros E0. apply bind_ok_inv in E0 as ([[g1 m1] o1] & E1 & E0). injection E0 as <- _ _.
    unfold insert_coefficients in E1. rewrite El, Nat.eqb_refl in E1.
    replace (length ts) with (length (combine ts vs)) in * by (rewrite combine_length; lia).
    apply insert_loop_gen in E1; auto. }
  destruct ts as [|t [|t2 ts]]; [now apply X| |destruct vs as [|? [|? ?]]; now apply X].
  destruct vs as [|v [|? ?]]; try discriminate El.
  destruct (empty (s_mgr c) || Nat.eqb (size (s_mgr c)) 1); [now apply X|].
  cbn [length] in *.
  assert (Y : forall p, (let* (g', m', out') := add_coefficient_at_end g (s_mgr c) t v out in
     Ok (g', Slerp m' p, out')) = Ok (g', c', out') -> (g <= g' <= g + N.of_nat 1)%N).
  { intros p E0. apply bind_ok_inv in E0 as ([[g1 m1] o1] & E1 & E0). injection E0 as <- _ _.
    unfold add_coefficient_at_end in E1. destruct (negb _); [discriminate|].
    destruct (nodes (s_mgr c)); [discriminate|]. destruct (map_insert _ _) as [[? ?] ?].
    injection E1 as <- _ _. rewrite next_key_nowrap; lia. }
  unfold slerp_extend_one in E. destruct (Z.eqb (p_min (s_pol c)) 1); [now apply (Y (s_pol c))|].
  apply bind_ok_inv in E as (p & _ & E).
  destruct (Z.eqb (p_count p) 1); [now apply (Y (if Z.eqb (p_count p) (p_min p) then set_count p 0 else p))|].
  destruct (last_node (nodes (s_mgr c))) as [n|]; [|discriminate].
  destruct (modify_coefficient _ _ _ _) as [m'| | |]; try discriminate. cbn [bind] in E.
  injection E as <- _ _. lia.
Qed.

(** Several values at once, or few coefficients: everything is inserted. *)
Lemma extend_insert g (c : curve) ts vs out :
  sane g (s_mgr c) -> length ts = length vs -> (g + N.of_nat (length ts) < key_mod)%N ->
  (length ts <> 1%nat \/ (size (s_mgr c) < 2)%nat) ->
  exists g' m' out', slerp_extend g c ts vs out = Ok (g', Slerp m' (s_pol c), out') /\ sane g' m' /\
    (g <= g')%N /\
    contents m' = fold_left (fun al x => al_insert (fst x) (snd x) al) (combine ts vs) (contents (s_mgr c)).
Proof.
  intros [Hc Hb] Hl Hg Hd.
  assert (E : slerp_extend g c ts vs out =
    let* (g', m', out') := insert_coefficients g (s_mgr c) ts vs out in Ok (g', Slerp m' (s_pol c), out')).
  { unfold slerp_extend. rewrite Hl, Nat.eqb_refl. cbn [negb].
    destruct ts as [|t [|t2 ts]]; [reflexivity| |destruct vs as [|? [|? ?]]; reflexivity].
    destruct vs as [|v [|? ?]]; try discriminate.
    destruct Hd as [Hd|Hd]; [now elim Hd|].
    replace (empty (s_mgr c) || Nat.eqb (size (s_mgr c)) 1) with true; [reflexivity|].
    unfold size, empty in *. destruct (nodes (s_mgr c)) as [|? [|? ?]]; simpl in *; auto. lia. }
  rewrite E. unfold insert_coefficients. rewrite Hl, Nat.eqb_refl.
  assert (Hlen : length (combine ts vs) = length ts) by (rewrite combine_length; lia).
  rewrite <- Hlen in Hg.
  destruct (insert_loop_spec (combine ts vs) g (s_mgr c) out Hc Hb Hg) as (g' & m' & ks & E1 & A & B & D & _).
  destruct (insert_loop_contents (combine ts vs) g (s_mgr c) out Hc Hb Hg) as (g2 & m2 & ks2 & E2 & F).
  rewrite E1 in E2. injection E2 as <- <- _. rewrite E1. cbn [bind].
  exists g', m', (out ++ ks). split; [reflexivity|]. split; [now split|]. split; [lia|exact F].
Qed.

(** One value after the end of a non-empty curve. *)
Definition counting (p : policy R) : Prop :=
  (1 <= p_min p <= int_max)%Z /\ (0 <= p_count p)%Z /\ (p_min p = 1 \/ p_count p < p_min p)%Z.

Lemma extend_past g (c : curve) t v out :
  sane g (s_mgr c) -> (g + 1 < key_mod)%N -> contents (s_mgr c) <> [] -> max_time (s_mgr c) < t ->
  counting (s_pol c) ->
  exists g' c' out', slerp_extend g c [t] [v] out = Ok (g', c', out') /\ sane g' (s_mgr c') /\
    (g <= g' <= g + 1)%N /\ counting (s_pol c') /\ p_min (s_pol c') = p_min (s_pol c) /\
    (contents (s_mgr c') = contents (s_mgr c) ++ [(t, v)] \/
     (p_min (s_pol c) <> 1%Z /\ exists l x, l <> [] /\ contents (s_mgr c) = l ++ [x] /\
        contents (s_mgr c') = l ++ [(t, v)])).
Proof.
  intros Hs Hg Hn Ht (Hm & Hc0 & Hcm). unfold slerp_extend. cbn [length Nat.eqb negb].
  assert (Htt : tlt (max_time (s_mgr c)) t = true) by now apply tlt_R.
  destruct (empty (s_mgr c) || Nat.eqb (size (s_mgr c)) 1) eqn:Ee.
  - destruct (insert_coefficients_end [t] [v] g (s_mgr c) out Hs) as (m' & ks & E & Hs' & Ec & _); auto.
    + simpl. destruct (contents (s_mgr c)) as [|[t0 v0] r] eqn:Ex using rev_ind; [congruence|].
      clear IHr. rewrite (contents_max _ _ _ _ Ex) in Ht.
      rewrite <- app_assoc. simpl. apply increasing_snoc. simpl. split; [|now apply Rltb_lt].
      rewrite <- Ex. apply contents_increasing. apply Hs.
    + simpl in E, Hs', Ec. rewrite E. cbn [bind]. do 3 eexists. split; [reflexivity|]. cbn [s_mgr s_pol].
      split; [exact Hs'|]. split; [lia|]. split; [repeat split; auto; lia|]. split; auto.
  - assert (Hsz : (2 <= length (contents (s_mgr c)))%nat).
    { rewrite <- contents_size. unfold empty, size in *. destruct (nodes (s_mgr c)) as [|? [|? ?]]; simpl in *; try discriminate; lia. }
    unfold slerp_extend_one. destruct (Z.eqb_spec (p_min (s_pol c)) 1) as [E1|E1].
    + destruct (end_add g (s_mgr c) t v out Hs Hg Hn Htt) as (m' & -> & Hs' & Ec). cbn [bind].
      do 3 eexists. split; [reflexivity|]. cbn [s_mgr s_pol]. split; [exact Hs'|]. split; [lia|].
      split; [repeat split; auto; lia|]. split; auto.
    + destruct Hcm as [Hcm|Hcm]; [congruence|].
      unfold count_up. destruct (Z.eqb_spec (p_count (s_pol c)) int_max) as [X|X]; [unfold int_max in *; lia|].
      cbn [bind p_count p_min].
      assert (Hcnt : forall q, q = (if (p_count (s_pol c) + 1 =? p_min (s_pol c))%Z
          then set_count (Policy (p_count (s_pol c) + 1) (p_min (s_pol c)) (p_period (s_pol c)) (p_last (s_pol c))) 0
          else Policy (p_count (s_pol c) + 1) (p_min (s_pol c)) (p_period (s_pol c)) (p_last (s_pol c)))%Z ->
        counting q /\ p_min q = p_min (s_pol c)).
      { intros q ->. destruct (Z.eqb_spec (p_count (s_pol c) + 1) (p_min (s_pol c))) as [Y|Y];
          unfold counting; simpl; repeat split; try lia. }
      destruct (Z.eqb_spec (p_count (s_pol c) + 1) 1) as [E2|E2].
      * destruct (end_add g (s_mgr c) t v out Hs Hg Hn Htt) as (m' & -> & Hs' & Ec). cbn [bind].
        do 3 eexists. split; [reflexivity|]. cbn [s_mgr s_pol]. split; [exact Hs'|]. split; [lia|].
        destruct (Hcnt _ eq_refl) as [A B]. split; [exact A|]. split; [exact B|]. now left.
      * destruct (contents (s_mgr c)) as [|[t0 v0] r _] eqn:Ex using rev_ind; [congruence|].
        rewrite (contents_max _ _ _ _ Ex) in Ht.
        destruct (contents_last _ _ _ _ Ex) as (n & En & _). rewrite En.
        destruct (end_move g (s_mgr c) r t0 v0 t v n Hs Ex En) as (m' & -> & Hs' & Ec); [now apply tlt_R|].
        cbn [bind]. do 3 eexists. split; [reflexivity|]. cbn [s_mgr s_pol]. split; [exact Hs'|]. split; [lia|].
        destruct (Hcnt _ eq_refl) as [A B]. split; [exact A|]. split; [exact B|]. right. split; auto.
        exists r, (t0, v0). split; auto. rewrite app_length in Hsz. simpl in Hsz. intros ->. simpl in Hsz. lia.
Qed.

(** With ratio 1 the given value is on the curve whenever the call returns. *)
Lemma extend_ratio_one g (c c' : curve) t v out g' out' :
  sane g (s_mgr c) -> (g + 1 < key_mod)%N -> p_min (s_pol c) = 1%Z ->
  slerp_extend g c [t] [v] out = Ok (g', c', out') ->
  sane g' (s_mgr c') /\ s_pol c' = s_pol c /\ In (t, v) (contents (s_mgr c')).
Proof.
  intros Hs Hg Hm E.
  destruct (Nat.lt_ge_cases (size (s_mgr c)) 2) as [L|L].
  - destruct (extend_insert g c [t] [v] out) as (g1 & m1 & o1 & E1 & Hs1 & _ & Ec); auto.
    rewrite E in E1. injection E1 as -> -> ->. simpl. split; [exact Hs1|]. split; auto. rewrite Ec. simpl.
    clear. induction (contents (s_mgr c)) as [|[t' v'] l IH]; simpl; auto.
    destruct (Rltb t t') eqn:E1; [now left|]. destruct (Rltb t' t) eqn:E2; [now right|].
    apply Rltb_ge in E1, E2. left. f_equal. lra.
  - unfold slerp_extend in E. cbn [length Nat.eqb negb] in E.
    assert (Hn : contents (s_mgr c) <> []).
    { intros X. rewrite contents_size, X in L. simpl in L. lia. }
    replace (empty (s_mgr c) || Nat.eqb (size (s_mgr c)) 1) with false in E.
    2:{ unfold empty, size in *. destruct (nodes (s_mgr c)) as [|? [|? ?]]; simpl in *; auto; lia. }
    unfold slerp_extend_one in E. rewrite Hm in E. cbn [Z.eqb Pos.eqb] in E.
    destruct (Rltb (max_time (s_mgr c)) t) eqn:Et.
    + destruct (end_add g (s_mgr c) t v out Hs Hg Hn Et) as (m1 & E1 & Hs1 & Ec).
      rewrite E1 in E. cbn [bind] in E. injection E as <- <- <-. simpl. split; [exact Hs1|]. split; auto.
      rewrite Ec, in_app_iff. simpl. auto.
    + unfold add_coefficient_at_end in E. change (tlt (max_time (s_mgr c)) t) with (Rltb (max_time (s_mgr c)) t) in E.
      rewrite Et in E. discriminate.
Qed.

(** Onto a cleared curve. *)
Lemma extend_cleared g (c : curve) ts vs out :
  length ts = length vs -> (g + N.of_nat (length ts) < key_mod)%N -> increasing (combine ts vs) ->
  exists g' m' out', slerp_extend g (slerp_clear c) ts vs out = Ok (g', Slerp m' (s_pol c), out') /\ sane g' m' /\
    (g <= g' <= g + N.of_nat (length ts))%N /\ contents m' = combine ts vs.
Proof.
  intros Hl Hg Hi. destruct (extend_insert g (slerp_clear c) ts vs out) as (g1 & m1 & o1 & E & Hs & Hgg & _).
  - apply sane_clear.
  - exact Hl.
  - exact Hg.
  - right. unfold slerp_clear, clear, size. simpl. lia.
  - exists g1, m1, o1. split; [exact E|]. split; [exact Hs|].
    split; [exact (extend_gen _ _ _ _ _ _ _ _ Hg E)|].
    destruct (insert_coefficients_end ts vs g (s_mgr (slerp_clear c)) out) as (m2 & ks & E2 & _ & Ec & _); auto.
    { apply sane_clear. }
    simpl in Ec. rewrite <- Ec.
    unfold slerp_extend in E. rewrite Hl, Nat.eqb_refl in E. cbn [negb] in E.
    assert (X : (let* (g', m', out') := insert_coefficients g (s_mgr (slerp_clear c)) ts vs out in
      Ok (g', Slerp m' (s_pol (slerp_clear c)), out')) = Ok (g1, Slerp m1 (s_pol c), o1)).
    { destruct ts as [|t [|t2 ts]]; [exact E| |destruct vs as [|? [|? ?]]; exact E].
      destruct vs as [|v [|? ?]]; try discriminate. exact E. }
    rewrite E2 in X. cbn [bind] in X. now injection X as _ -> _.
Qed.

(** Appending after the end does not change what was there. *)
Lemma pw_append mid (c c' : curve) t v s :
  starts mid -> consistent (s_mgr c) -> consistent (s_mgr c') -> contents (s_mgr c) <> [] ->
  contents (s_mgr c') = contents (s_mgr c) ++ [(t, v)] -> s <= max_time (s_mgr c) ->
  pw_evaluate mid c' s = pw_evaluate mid c s.
Proof.
  intros Hst Hc Hc' Hn E Hs.
  assert (Em : min_time (s_mgr c') = min_time (s_mgr c)).
  { destruct (contents (s_mgr c)) as [|[t0 v0] r] eqn:Ec; [congruence|].
    rewrite (contents_first _ _ _ _ Ec). now apply (contents_first _ t0 v0 (r ++ [(t, v)])). }
  assert (Hn' : contents (s_mgr c') <> []) by (rewrite E; now apply not_eq_sym, app_cons_not_nil).
  destruct (Rle_dec (min_time (s_mgr c)) s) as [A|A].
  - destruct (pw_cases (s_mgr c) s Hc Hn) as [(x & Hi)|(u & ta & va & tb & vb & w & Eu & Ht)]; [lra| |].
    + rewrite (pw_at mid c s x), (pw_at mid c' s x); auto. rewrite E, in_app_iff. auto.
    + rewrite (pw_between mid c u ta va tb vb w s) by auto.
      apply (pw_between mid c' u ta va tb vb (w ++ [(t, v)]) s); auto.
      rewrite E, Eu, <- app_assoc. reflexivity.
  - rewrite !pw_outside; auto; lra.
Qed.

(** A curve with equal values everywhere. *)
Definition const_mid (mid : @middle R V) : Prop := forall ta v tb t, mid ta v tb v t = v.

Lemma pw_const mid (c : curve) v t :
  starts mid -> const_mid mid -> consistent (s_mgr c) -> contents (s_mgr c) <> [] ->
  (forall x, In x (contents (s_mgr c)) -> snd x = v) ->
  min_time (s_mgr c) <= t <= max_time (s_mgr c) -> pw_evaluate mid c t = Ok v.
Proof.
  intros Hst Hk Hc Hn Hv Ht.
  destruct (pw_cases (s_mgr c) t Hc Hn Ht) as [(v' & Hi)|(u & ta & va & tb & vb & w & Eu & H1)].
  - rewrite (pw_at mid c t v'); auto. f_equal. exact (Hv _ Hi).
  - rewrite (pw_between _ c u ta va tb vb w t) by auto. f_equal.
    assert (va = v) as ->. { apply (Hv (ta, va)). rewrite Eu, in_app_iff. simpl. auto. }
    assert (vb = v) as ->. { apply (Hv (tb, vb)). rewrite Eu, in_app_iff. simpl. auto. }
    apply Hk.
Qed.

End Extend.
