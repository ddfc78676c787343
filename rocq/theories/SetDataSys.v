(** * The linear system of setData, over the reals

    The matrix that the code fills block by block is described by a list of
    conditions, each a list of blocks (segment, vector) and a target value; a vector of
    coefficients solves the system iff its segments meet the conditions. *)

From Coq Require Import List Reals Lra Lia Bool Arith ZArith.
From Verif Require Import Base Num TimeInst Spline SplineSpec LinSpec SplineProofs Container.
Import ListNotations.
Local Open Scope R_scope.

(** ** Lists of segments *)

Lemma list_set_length {A} (l : list A) i v : length (list_set l i v) = length l.
Proof. revert i. induction l; intros [|i]; simpl; auto. Qed.

Lemma list_set_app {A} (a b : list A) x v : list_set (a ++ x :: b) (length a) v = a ++ v :: b.
Proof. induction a; simpl; congruence. Qed.

Lemma list_set_Forall {A} (P : A -> Prop) l i v : Forall P l -> P v -> Forall P (list_set l i v).
Proof. intros H Hv. revert i. induction H; intros [|i]; simpl; auto. Qed.

Lemma nth_list_set_same {A} (l : list A) i v d : (i < length l)%nat -> nth i (list_set l i v) d = v.
Proof. revert i. induction l; intros [|i] L; simpl in *; try lia; auto. apply IHl. lia. Qed.

Lemma nth_list_set_other {A} (l : list A) i j v d : i <> j -> nth j (list_set l i v) d = nth j l d.
Proof.
  revert i j. induction l; intros [|i] [|j] L; simpl in *; try lia; auto.
Qed.

Lemma concat_length_uniform {A} w (rs : list (list A)) : Forall (fun r => length r = w) rs ->
  length (concat rs) = (length rs * w)%nat.
Proof. induction 1; simpl; auto. rewrite app_length. lia. Qed.

Lemma concat_repeat0 w n : concat (repeat (repeat 0 w) n) = repeat 0 (n * w).
Proof. induction n; simpl; auto. now rewrite IHn, repeat_app. Qed.

Lemma put_block_concat w (rs : list (list R)) id v : Forall (fun r => length r = w) rs ->
  (id < length rs)%nat -> length v = w -> put_block (concat rs) (id * w) v = concat (list_set rs id v).
Proof.
  intros H. revert id. induction H as [|r rs Hr H IH]; intros id L Lv; simpl in L; [lia|].
  destruct id as [|id]; unfold put_block in *.
  - simpl. rewrite skipn_app, skipn_all2 by lia.
    replace (length v - length r)%nat with 0%nat by lia. reflexivity.
  - cbn [list_set concat]. rewrite <- (IH id) by (auto; lia).
    replace (S id * w)%nat with (length r + id * w)%nat by lia.
    rewrite firstn_app_2, <- app_assoc. do 3 f_equal.
    rewrite <- Nat.add_assoc, skipn_app, skipn_all2 by lia.
    replace (length r + (id * w + length v) - length r)%nat with (id * w + length v)%nat by lia.
    reflexivity.
Qed.

(** ** Scalar products by segments *)

Fixpoint dsum (rs ss : list (list R)) : R :=
  match rs, ss with
  | r :: rs', s :: ss' => dot r s + dsum rs' ss'
  | _, _ => 0
  end.

Lemma dot_app a a' b b' : length a = length b -> dot (a ++ a') (b ++ b') = dot a b + dot a' b'.
Proof.
  revert b. induction a; intros [|y b] L; simpl in *; try discriminate; [lra|].
  rewrite IHa by lia. lra.
Qed.

Lemma dot_concat w (rs ss : list (list R)) : Forall (fun r => length r = w) rs ->
  Forall (fun r => length r = w) ss -> length rs = length ss -> dot (concat rs) (concat ss) = dsum rs ss.
Proof.
  intros H. revert ss. induction H as [|r rs Hr H IH]; intros [|s ss] Hs L; simpl in *; try discriminate; auto.
  inversion Hs; subst. rewrite dot_app by congruence. rewrite IH by (auto; lia). reflexivity.
Qed.

Lemma dot_zero k x : dot (repeat 0 k) x = 0.
Proof. revert x. induction k; intros [|y x]; simpl; auto. rewrite IHk. lra. Qed.

Lemma dsum_zero w n ss : dsum (repeat (repeat 0 w) n) ss = 0.
Proof. revert ss. induction n; intros [|s ss]; simpl; auto. rewrite dot_zero, IHn. lra. Qed.

Lemma dsum_set rs ss id v : (id < length rs)%nat -> length rs = length ss ->
  dsum (list_set rs id v) ss = dsum rs ss - dot (nth id rs []) (nth id ss []) + dot v (nth id ss []).
Proof.
  revert ss id. induction rs as [|r rs IH]; intros [|s ss] [|id] L E; simpl in *; try lia; try lra.
  rewrite IH by lia. lra.
Qed.

Lemma dot_vneg v x : dot (vneg v) x = - dot v x.
Proof.
  unfold vneg. revert x. induction v as [|a v IH]; intros [|y x]; simpl; try lra.
  rewrite IH. numR. lra.
Qed.

Lemma vneg_length (v : list R) : length (vneg v) = length v.
Proof. apply map_length. Qed.

(** ** Conditions *)

Notation blocks := (list (nat * list R)).
Notation cond := (list (nat * list R) * R)%type.

Definition rsegs (w n : nat) (bs : blocks) : list (list R) :=
  fold_left (fun rs b => list_set rs (fst b) (snd b)) bs (repeat (repeat 0 w) n).

Definition rowvec (w n : nat) (bs : blocks) : list R := concat (rsegs w n bs).

Definition fits (w n : nat) (bs : blocks) : Prop := Forall (fun b => (fst b < n)%nat /\ length (snd b) = w) bs.

Definition cval (ss : list (list R)) (bs : blocks) : R :=
  fold_right (fun b acc => acc + dot (snd b) (nth (fst b) ss [])) 0 (rev bs).

Lemma rsegs_snoc w n bs b : rsegs w n (bs ++ [b]) = list_set (rsegs w n bs) (fst b) (snd b).
Proof. unfold rsegs. now rewrite fold_left_app. Qed.

Lemma rsegs_length w n bs : length (rsegs w n bs) = n.
Proof.
  induction bs as [|b bs IH] using rev_ind; [apply repeat_length|].
  now rewrite rsegs_snoc, list_set_length.
Qed.

Lemma rsegs_uniform w n bs : fits w n bs -> Forall (fun r => length r = w) (rsegs w n bs).
Proof.
  induction bs as [|b bs IH] using rev_ind; intros H.
  - unfold rsegs. simpl. apply Forall_forall. intros r Hr. apply repeat_spec in Hr. subst. apply repeat_length.
  - apply Forall_app in H as [H1 H2]. inversion H2; subst. rewrite rsegs_snoc.
    apply list_set_Forall; [auto|tauto].
Qed.

Lemma rowvec_length w n bs : fits w n bs -> length (rowvec w n bs) = (n * w)%nat.
Proof.
  intros H. unfold rowvec. rewrite (concat_length_uniform w) by now apply rsegs_uniform.
  now rewrite rsegs_length.
Qed.

Lemma rowvec_nil w n : rowvec w n [] = repeat 0 (n * w).
Proof. apply concat_repeat0. Qed.

Lemma rsegs_untouched w n bs i : ~ In i (map fst bs) -> (i < n)%nat -> nth i (rsegs w n bs) [] = repeat 0 w.
Proof.
  induction bs as [|b bs IH] using rev_ind; intros Hi Hn.
  - unfold rsegs. simpl. rewrite (nth_indep _ [] (repeat 0 w)) by now rewrite repeat_length.
    apply nth_repeat.
  - rewrite map_app, in_app_iff in Hi. simpl in Hi.
    rewrite rsegs_snoc, nth_list_set_other by tauto. apply IH; tauto.
Qed.

Lemma dsum_rsegs w n bs ss : fits w n bs -> NoDup (map fst bs) -> length ss = n ->
  dsum (rsegs w n bs) ss = cval ss bs.
Proof.
  induction bs as [|b bs IH] using rev_ind; intros H Hnd L.
  - unfold rsegs, cval. simpl. apply dsum_zero.
  - apply Forall_app in H as [H1 H2]. inversion H2 as [|? ? [Hb _] _]; subst.
    rewrite map_app in Hnd. simpl in Hnd. apply NoDup_remove in Hnd as [Hnd Hni]. rewrite app_nil_r in *.
    rewrite rsegs_snoc, dsum_set by (rewrite ?rsegs_length; auto).
    rewrite IH by auto. rewrite rsegs_untouched by auto. rewrite dot_zero.
    unfold cval. rewrite rev_app_distr. simpl. lra.
Qed.

Lemma dot_rowvec w n bs ss : fits w n bs -> NoDup (map fst bs) -> length ss = n ->
  Forall (fun r => length r = w) ss -> dot (rowvec w n bs) (concat ss) = cval ss bs.
Proof.
  intros H Hnd L Hs. unfold rowvec.
  rewrite (dot_concat w) by (auto using rsegs_uniform; now rewrite rsegs_length).
  now apply dsum_rsegs.
Qed.

(** ** The state while the matrix is being filled *)

Definition in_state (w n m : nat) (cs : list cond) (bs : blocks) (y : sys R) : Prop :=
  y_idx y = length cs /\ (length cs <= m)%nat /\
  y_jac y = map (fun c => rowvec w n (fst c)) cs ++
              match (m - length cs)%nat with O => [] | S k => rowvec w n bs :: repeat (rowvec w n []) k end /\
  y_tgt y = map snd cs ++ repeat 0 (m - length cs).

Lemma initial_state w n m : in_state w n m [] [] (mkSys (repeat (repeat 0 (n * w)) m) (repeat 0 m) 0).
Proof.
  unfold in_state. cbn [y_idx y_jac y_tgt map app length]. rewrite Nat.sub_0_r, <- (rowvec_nil w n).
  split; [reflexivity|]. split; [lia|]. split; [destruct m; reflexivity|reflexivity].
Qed.

Lemma set_block_state w n m cs bs y id v col : in_state w n m cs bs y -> (length cs < m)%nat ->
  fits w n bs -> (id < n)%nat -> length v = w -> col = (id * w)%nat ->
  exists y', set_block y col v = Ok y' /\ in_state w n m cs (bs ++ [(id, v)]) y'.
Proof.
  intros (Hi & _ & Hj & Ht) Hm Hf Hid Hv ->. unfold set_block. rewrite Hi, Hj.
  destruct (m - length cs)%nat as [|k] eqn:Ek; [lia|].
  rewrite nth_error_app2 by (rewrite map_length; apply le_n). rewrite map_length, Nat.sub_diag. simpl.
  rewrite rowvec_length by auto.
  destruct (Nat.leb_spec (id * w + length v) (n * w)) as [L|L]; [|nia].
  eexists. split; [reflexivity|]. unfold in_state. cbn [y_idx y_jac y_tgt].
  split; [exact eq_refl|]. split; [lia|]. split.
  - rewrite Ek. rewrite <- (map_length (fun c : cond => rowvec w n (fst c)) cs) at 1.
    rewrite list_set_app. do 2 f_equal. unfold rowvec.
    rewrite (put_block_concat w) by (auto using rsegs_uniform; now rewrite rsegs_length).
    now rewrite rsegs_snoc.
  - now rewrite Ht, Ek.
Qed.

Lemma set_target_state w n m cs bs y x : in_state w n m cs bs y -> (length cs < m)%nat ->
  exists y', set_target y x = Ok y' /\ in_state w n m (cs ++ [(bs, x)]) [] (next_row y').
Proof.
  intros (Hi & _ & Hj & Ht) Hm. unfold set_target. rewrite Hi, Ht.
  rewrite app_length, map_length, repeat_length.
  destruct (Nat.ltb_spec (length cs) (length cs + (m - length cs))) as [_|L]; [|lia].
  eexists. split; [reflexivity|]. unfold in_state, next_row. cbn [y_idx y_jac y_tgt].
  rewrite !map_app, !app_length. simpl. rewrite Nat.add_1_r.
  destruct (m - length cs)%nat as [|k] eqn:Ek; [lia|].
  replace (m - S (length cs))%nat with k by lia.
  split; [reflexivity|]. split; [lia|]. split.
  - rewrite Hj, <- app_assoc. simpl. destruct k; reflexivity.
  - rewrite <- app_assoc. simpl.
    rewrite <- (map_length snd cs) at 1. now rewrite list_set_app.
Qed.

Lemma add_condition_state w n m cs bs y id v x col : in_state w n m cs bs y -> (length cs < m)%nat ->
  fits w n bs -> (id < n)%nat -> length v = w -> col = (id * w)%nat ->
  exists y', add_condition y col v x = Ok y' /\ in_state w n m (cs ++ [(bs ++ [(id, v)], x)]) [] y'.
Proof.
  intros Hs Hm Hf Hid Hv Hc.
  destruct (set_block_state w n m cs bs y id v col Hs Hm Hf Hid Hv Hc) as (y1 & E1 & H1).
  destruct (set_target_state w n m cs _ y1 x H1 Hm) as (y2 & E2 & H2).
  unfold add_condition. rewrite E1. simpl. rewrite E2. simpl. eauto.
Qed.

(** ** The conditions of the code *)

Lemma tau_length o t : (1 <= o <= 5)%nat -> length (tau o t : list R) = (o + 1)%nat.
Proof. intros Ho. orders o; reflexivity. Qed.
Lemma dtau_length o t : (1 <= o <= 5)%nat -> length (dtau o t : list R) = (o + 1)%nat.
Proof. intros Ho. orders o; reflexivity. Qed.
Lemma ddtau_length o t : (1 <= o <= 5)%nat -> length (ddtau o t : list R) = (o + 1)%nat.
Proof. intros Ho. orders o; reflexivity. Qed.
Lemma tau_zero_length o : (1 <= o <= 5)%nat -> length (tau_zero o : list R) = (o + 1)%nat.
Proof. intros Ho. orders o; reflexivity. Qed.
Lemma dtau_zero_length o : (1 <= o <= 5)%nat -> length (dtau_zero o : list R) = (o + 1)%nat.
Proof. intros Ho. orders o; reflexivity. Qed.
Lemma ddtau_zero_length o : (1 <= o <= 5)%nat -> length (ddtau_zero o : list R) = (o + 1)%nat.
Proof. intros Ho. orders o; reflexivity. Qed.

Section Conds.
Variable o : nat.
Hypothesis Ho : (1 <= o <= 5)%nat.

Definition three (id : nat) (v0 v1 v2 : list R) (conds : list R) : list cond :=
  match conds with
  | [] => []
  | p :: c1 => ([(id, v0)], p) ::
      match c1 with
      | [] => []
      | v :: c2 => ([(id, v1)], v) ::
          match c2 with [] => [] | a :: _ => [([(id, v2)], a)] end
      end
  end.

Definition junction (D P : list R) (id : nat) : list cond :=
  let d := nth id D 0 in let p := nth (id + 1) P 0 in
  [ ([(id, tau o d)], p); ([((id + 1)%nat, tau_zero o)], p);
    ([(id, dtau o d); ((id + 1)%nat, vneg (dtau_zero o))], 0);
    ([(id, ddtau o d); ((id + 1)%nat, vneg (ddtau_zero o))], 0) ].

Fixpoint junctions (D P : list R) (k id : nat) : list cond :=
  match k with O => [] | S k' => junction D P id ++ junctions D P k' (id + 1) end.

Lemma junctions_length D P k id : length (junctions D P k id) = (4 * k)%nat.
Proof. revert id. induction k; intros id; cbn [junctions]; [reflexivity|]. rewrite app_length, IHk. simpl. lia. Qed.

Lemma vec_at_nth (l : list R) i : (i < length l)%nat -> vec_at l i = Ok (nth i l 0).
Proof. intros L. unfold vec_at. now rewrite (nth_error_nth' l 0 L). Qed.

Variables n m : nat.
Local Notation w := (o + 1)%nat.

Lemma initial_conditions_state cs conds y : in_state w n m cs [] y -> (0 < n)%nat ->
  (length cs + length (three 0 (tau_zero o) (dtau_zero o) (ddtau_zero o) conds) <= m)%nat ->
  exists y', add_initial_conditions o conds y = Ok y' /\
    in_state w n m (cs ++ three 0 (tau_zero o) (dtau_zero o) (ddtau_zero o) conds) [] y'.
Proof.
  intros Hs Hn Hm. unfold add_initial_conditions.
  destruct conds as [|p c1]; [exists y; cbn [three]; rewrite app_nil_r; auto|].
  destruct (add_condition_state w n m cs [] y 0 (tau_zero o) p (column_index o 0)) as (y1 & E1 & H1);
    auto using tau_zero_length; try constructor; try (cbn [three length] in Hm; lia).
  rewrite E1. cbn [bind].
  destruct c1 as [|v c2]; [exists y1; auto|].
  destruct (add_condition_state w n m _ [] y1 0 (dtau_zero o) v (column_index o 0) H1) as (y2 & E2 & H2);
    auto using dtau_zero_length; try constructor; try (cbn [three length] in Hm; rewrite app_length; simpl; lia).
  rewrite E2. cbn [bind]. rewrite <- app_assoc in H2.
  destruct c2 as [|a c3]; [exists y2; auto|].
  destruct (add_condition_state w n m _ [] y2 0 (ddtau_zero o) a (column_index o 0) H2) as (y3 & E3 & H3);
    auto using ddtau_zero_length; try constructor; try (cbn [three length] in Hm; rewrite app_length; simpl; lia).
  rewrite E3. cbn [bind]. rewrite <- app_assoc in H3. exists y3. auto.
Qed.

Lemma final_conditions_state cs conds d id y : in_state w n m cs [] y -> (id < n)%nat ->
  (length cs + length (three id (tau o d) (dtau o d) (ddtau o d) conds) <= m)%nat ->
  exists y', add_final_conditions o conds d id y = Ok y' /\
    in_state w n m (cs ++ three id (tau o d) (dtau o d) (ddtau o d) conds) [] y'.
Proof.
  intros Hs Hn Hm. unfold add_final_conditions.
  destruct conds as [|p c1]; [exists y; cbn [three]; rewrite app_nil_r; auto|].
  destruct (add_condition_state w n m cs [] y id (tau o d) p (column_index o id)) as (y1 & E1 & H1);
    auto using tau_length; try constructor; try (cbn [three length] in Hm; lia).
  rewrite E1. cbn [bind].
  destruct c1 as [|v c2]; [exists y1; auto|].
  destruct (add_condition_state w n m _ [] y1 id (dtau o d) v (column_index o id) H1) as (y2 & E2 & H2);
    auto using dtau_length; try constructor; try (cbn [three length] in Hm; rewrite app_length; simpl; lia).
  rewrite E2. cbn [bind]. rewrite <- app_assoc in H2.
  destruct c2 as [|a c3]; [exists y2; auto|].
  destruct (add_condition_state w n m _ [] y2 id (ddtau o d) a (column_index o id) H2) as (y3 & E3 & H3);
    auto using ddtau_length; try constructor; try (cbn [three length] in Hm; rewrite app_length; simpl; lia).
  rewrite E3. cbn [bind]. rewrite <- app_assoc in H3. exists y3. auto.
Qed.

Lemma junction_state cs D P id y : in_state w n m cs [] y -> (id + 1 < n)%nat -> length D = n ->
  length P = (n + 1)%nat -> (length cs + 4 <= m)%nat ->
  exists y', add_junction o D P id y = Ok y' /\ in_state w n m (cs ++ junction D P id) [] y'.
Proof.
  intros Hs Hn LD LP Hm. unfold add_junction.
  rewrite !vec_at_nth by lia. cbn [bind]. set (d := nth id D 0). set (p := nth (id + 1) P 0).
  destruct (add_condition_state w n m cs [] y id (tau o d) p (column_index o id)) as (y1 & E1 & H1);
    auto using tau_length; try constructor; try lia.
  rewrite E1. cbn [bind].
  destruct (add_condition_state w n m _ [] y1 (id + 1) (tau_zero o) p (column_index o (id + 1)) H1) as (y2 & E2 & H2);
    rewrite ?app_length; auto using tau_zero_length; try constructor; simpl; try lia.
  rewrite E2. cbn [bind].
  destruct (set_block_state w n m _ [] y2 id (dtau o d) (column_index o id) H2) as (y3 & E3 & H3);
    rewrite ?app_length; auto using dtau_length; try constructor; simpl; try lia.
  rewrite E3. cbn [bind].
  destruct (add_condition_state w n m _ _ y3 (id + 1) (vneg (dtau_zero o)) 0 (column_index o (id + 1)) H3) as (y4 & E4 & H4);
    rewrite ?app_length, ?vneg_length; auto using dtau_zero_length; simpl; try lia.
  { constructor; [|constructor]. simpl. split; [lia|now apply dtau_length]. }
  numR. rewrite E4. cbn [bind].
  destruct (set_block_state w n m _ [] y4 id (ddtau o d) (column_index o id) H4) as (y5 & E5 & H5);
    rewrite ?app_length; auto using ddtau_length; try constructor; simpl; try lia.
  rewrite E5. cbn [bind].
  destruct (add_condition_state w n m _ _ y5 (id + 1) (vneg (ddtau_zero o)) 0 (column_index o (id + 1)) H5) as (y6 & E6 & H6);
    rewrite ?app_length, ?vneg_length; auto using ddtau_zero_length; simpl; try lia.
  { constructor; [|constructor]. simpl. split; [lia|now apply ddtau_length]. }
  exists y6. split; [exact E6|]. rewrite <- !app_assoc in H6. exact H6.
Qed.

Lemma junctions_state D P k : forall cs id y, in_state w n m cs [] y -> (id + k < n)%nat -> length D = n ->
  length P = (n + 1)%nat -> (length cs + 4 * k <= m)%nat ->
  exists y', add_junctions o D P k id y = Ok y' /\ in_state w n m (cs ++ junctions D P k id) [] y'.
Proof.
  induction k as [|k IH]; intros cs id y Hs Hn LD LP Hm; cbn [add_junctions junctions].
  - exists y. rewrite app_nil_r. auto.
  - destruct (junction_state cs D P id y Hs) as (y1 & E1 & H1); auto; try lia.
    rewrite E1. cbn [bind].
    destruct (IH _ (id + 1)%nat y1 H1) as (y2 & E2 & H2); auto; try lia.
    { rewrite app_length. simpl. lia. }
    exists y2. split; [exact E2|]. now rewrite <- app_assoc in H2.
Qed.

End Conds.
