(** * What the splines stored by setData satisfy, over the reals *)

From Coq Require Import List Reals Lra Lia Bool Arith ZArith.
From Verif Require Import Base Num TimeInst Spline SplineSpec LinSpec SplineProofs
  Container ContainerSpec ContainerProofs SetDataSpec SetDataSys.
Import ListNotations.
Local Open Scope R_scope.

(** ** Knot differences *)

Definition diffs (knots : list R) : list R :=
  map (fun i => nth (i + 1) knots 0 - nth i knots 0) (seq 0 (length knots - 1)).

Lemma diffs_length knots : length (diffs knots) = (length knots - 1)%nat.
Proof. unfold diffs. now rewrite map_length, seq_length. Qed.

Lemma diffs_nth knots i : (i + 1 < length knots)%nat ->
  nth i (diffs knots) 0 = nth (i + 1) knots 0 - nth i knots 0.
Proof.
  intros L. unfold diffs.
  rewrite (nth_indep _ 0 ((fun i => nth (i + 1) knots 0 - nth i knots 0) 0%nat))
    by (rewrite map_length, seq_length; lia).
  rewrite (map_nth (fun i => nth (i + 1) knots 0 - nth i knots 0)).
  rewrite seq_nth by lia. reflexivity.
Qed.

Lemma durations_loop_spec knots : forall n id acc, (id + n + 1 = length knots)%nat ->
  (increasing knots ->
   durations_loop knots n id acc =
     Ok (Some (acc ++ map (fun i => nth (i + 1) knots 0 - nth i knots 0) (seq id n)))) /\
  ((exists i, (id <= i)%nat /\ (i + 1 < length knots)%nat /\ nth (i + 1) knots 0 <= nth i knots 0) ->
   durations_loop knots n id acc = Ok None).
Proof.
  induction n as [|n IH]; intros id acc L.
  - split; [intros _; simpl; now rewrite app_nil_r|]. intros (i & H1 & H2 & _). lia.
  - cbn [durations_loop seq map]. rewrite !vec_at_nth by lia. cbn [bind]. numR. split.
    + intros Hi. pose proof (Hi id ltac:(lia)).
      rewrite (proj2 (Rleb_gt _ _)) by lra.
      rewrite (proj1 (IH (id + 1)%nat _ ltac:(lia)) Hi), <- app_assoc, Nat.add_1_r. reflexivity.
    + intros (i & H1 & H2 & H3). destruct (Nat.eq_dec i id) as [->|Hne].
      * rewrite (proj2 (Rleb_le _ _)) by lra. reflexivity.
      * destruct (negb _); [reflexivity|]. apply (proj2 (IH (id + 1)%nat _ ltac:(lia))).
        exists i. split; [lia|]. auto.
Qed.

(** ** Segments of the solution *)

Fixpoint chunks (w n : nat) (x : list R) : list (list R) :=
  match n with O => [] | S k => firstn w x :: chunks w k (skipn w x) end.

Lemma skipn_skipn' {A} a b (l : list A) : skipn a (skipn b l) = skipn (a + b) l.
Proof.
  revert l. induction b as [|b IH]; intros l; [now rewrite Nat.add_0_r|].
  rewrite Nat.add_succ_r. destruct l; [now rewrite !skipn_nil|]. simpl. apply IH.
Qed.

Lemma chunks_concat w n x : length x = (n * w)%nat -> concat (chunks w n x) = x.
Proof.
  revert x. induction n as [|n IH]; intros x L; simpl in *.
  - destruct x; [reflexivity|discriminate].
  - rewrite IH; [apply firstn_skipn|]. rewrite skipn_length. lia.
Qed.

Lemma chunks_length w n x : length (chunks w n x) = n.
Proof. revert x. induction n; intros x; simpl; auto. Qed.

Lemma chunks_uniform w n x : length x = (n * w)%nat -> Forall (fun r => length r = w) (chunks w n x).
Proof.
  revert x. induction n as [|n IH]; intros x L; simpl in *; constructor.
  - rewrite firstn_length. lia.
  - apply IH. rewrite skipn_length. lia.
Qed.

Lemma chunks_nth w n x i : (i < n)%nat -> nth i (chunks w n x) [] = firstn w (skipn (i * w) x).
Proof.
  revert x i. induction n as [|n IH]; intros x i L; [lia|]. destruct i as [|i]; simpl; [reflexivity|].
  rewrite IH, skipn_skipn' by lia. do 2 f_equal. lia.
Qed.

Definition add_splines (c : container R) (l : list (spline R)) : container R := fold_left add_spline l c.

Definition splines_of (segs : list (list R)) (D : list R) : list (spline R) :=
  map (fun i => spline_of (nth i segs []) (nth i D 0)) (seq 0 (length D)).

(** The container holding some splines, at time 0. *)
Definition holding (l : list (spline R)) : container R := mkContainer l 0 0 (total l) 0%Z.

Lemma add_splines_holding c l : add_splines (reset c) l = holding l.
Proof.
  unfold add_splines. induction l as [|s l IH] using rev_ind; [reflexivity|].
  rewrite fold_left_app, IH. simpl. unfold add_spline, holding. simpl. numR.
  now rewrite total_snoc.
Qed.

Lemma extract_spec o coeffs D : forall n id c, (id + n = length D)%nat ->
  length coeffs = (length D * (o + 1))%nat ->
  extract o coeffs D n id c =
    Ok (add_splines c (map (fun i => spline_of (firstn (o + 1) (skipn (i * (o + 1)) coeffs)) (nth i D 0)) (seq id n))).
Proof.
  induction n as [|n IH]; intros id c L Lc; [reflexivity|].
  cbn [extract seq map]. unfold column_index.
  destruct (Nat.leb_spec (id * (o + 1) + (o + 1)) (length coeffs)) as [_|Hb]; [|nia].
  rewrite vec_at_nth by lia. cbn [bind]. rewrite IH by (auto; lia). rewrite (Nat.add_1_r id). reflexivity.
Qed.

Lemma extract_chunks o coeffs D c : length coeffs = (length D * (o + 1))%nat ->
  extract o coeffs D (length D) 0 (reset c) =
    Ok (holding (splines_of (chunks (o + 1) (length D) coeffs) D)).
Proof.
  intros L. rewrite extract_spec by auto. rewrite add_splines_holding. do 2 f_equal.
  unfold splines_of. apply map_ext_in. intros i Hi. apply in_seq in Hi.
  now rewrite chunks_nth by lia.
Qed.

(** ** Meaning of the conditions *)

Lemma dot_comm a b : dot a b = dot b a.
Proof. revert b. induction a; intros [|y b]; simpl; auto. rewrite IHa. lra. Qed.

Section Meaning.
Variable o : nat.
Hypothesis Ho : (1 <= o <= 5)%nat.

Lemma dot_tau cs t : length cs = (o + 1)%nat -> dot (tau o t) cs = poly o cs t.
Proof. intros L. rewrite <- (tau_poly o cs t Ho L), inner_product_dot, dot_comm. lra. Qed.
Lemma dot_dtau cs t : length cs = (o + 1)%nat -> dot (dtau o t) cs = dpoly o cs t.
Proof. intros L. rewrite <- (dtau_poly o cs t Ho L), inner_product_dot, dot_comm. lra. Qed.
Lemma dot_ddtau cs t : length cs = (o + 1)%nat -> dot (ddtau o t) cs = ddpoly o cs t.
Proof. intros L. rewrite <- (ddtau_poly o cs t Ho L), inner_product_dot, dot_comm. lra. Qed.

End Meaning.

Lemma dot_tau_zero o cs : (1 <= o <= 5)%nat -> length cs = (o + 1)%nat -> dot (tau_zero o) cs = poly o cs 0.
Proof. intros Ho L. orders o; explode cs; unfold poly; simpl; numR; ring. Qed.
Lemma dot_dtau_zero o cs : (1 <= o <= 5)%nat -> length cs = (o + 1)%nat -> dot (dtau_zero o) cs = dpoly o cs 0.
Proof. intros Ho L. orders o; explode cs; unfold dpoly; simpl; numR; ring. Qed.
Lemma dot_ddtau_zero o cs : (1 <= o <= 5)%nat -> length cs = (o + 1)%nat -> dot (ddtau_zero o) cs = ddpoly o cs 0.
Proof. intros Ho L. orders o; explode cs; unfold ddpoly; simpl; numR; ring. Qed.

(** Position, velocity and acceleration agree at interior knots and the knots are met. *)
Definition joined (o n : nat) (D P : list R) (segs : list (list R)) : Prop :=
  forall i, (i + 1 < n)%nat ->
    poly o (nth i segs []) (nth i D 0) = nth (i + 1) P 0 /\
    poly o (nth (i + 1) segs []) 0 = nth (i + 1) P 0 /\
    dpoly o (nth i segs []) (nth i D 0) = dpoly o (nth (i + 1) segs []) 0 /\
    ddpoly o (nth i segs []) (nth i D 0) = ddpoly o (nth (i + 1) segs []) 0.

(** Some of: position, velocity, acceleration, at time [t] of one segment. *)
Definition endpoint (o : nat) (cs : list R) (t : R) (conds : list R) : Prop :=
  match conds with
  | [] => True
  | p :: c1 => poly o cs t = p /\
      match c1 with
      | [] => True
      | v :: c2 => dpoly o cs t = v /\ match c2 with [] => True | a :: _ => ddpoly o cs t = a end
      end
  end.

Definition sys_conds (o n : nat) (D P : list R) (va0 vaT : list R) : list cond :=
  three 0 (tau_zero o) (dtau_zero o) (ddtau_zero o) (nth 0 P 0 :: va0) ++
  three (n - 1) (tau o (nth (n - 1) D 0)) (dtau o (nth (n - 1) D 0)) (ddtau o (nth (n - 1) D 0)) (nth n P 0 :: vaT) ++
  junctions o D P (n - 1) 0.

Definition good (o n : nat) (D P va0 vaT : list R) (segs : list (list R)) : Prop :=
  endpoint o (nth 0 segs []) 0 (nth 0 P 0 :: va0) /\
  endpoint o (nth (n - 1) segs []) (nth (n - 1) D 0) (nth n P 0 :: vaT) /\
  joined o n D P segs.

Definition cond_holds (segs : list (list R)) (c : cond) : Prop := cval segs (fst c) = snd c.

Lemma Forall_two {A} (P : A -> Prop) a b : Forall P (a ++ b) <-> Forall P a /\ Forall P b.
Proof. apply Forall_app. Qed.

Lemma cval_one segs id v : cval segs [(id, v)] = dot v (nth id segs []).
Proof. unfold cval. simpl. lra. Qed.
Lemma cval_two segs i v j u : cval segs [(i, v); (j, u)] = dot v (nth i segs []) + dot u (nth j segs []).
Proof. unfold cval. simpl. lra. Qed.

Lemma three_zero_meaning o segs id conds : (1 <= o <= 5)%nat -> length (nth id segs []) = (o + 1)%nat ->
  Forall (cond_holds segs) (three id (tau_zero o) (dtau_zero o) (ddtau_zero o) conds) <->
  endpoint o (nth id segs []) 0 conds.
Proof.
  intros Ho L. destruct conds as [|p [|v [|a r]]]; cbn [three endpoint];
    rewrite ?Forall_cons_iff, ?Forall_nil_iff; unfold cond_holds; cbn [fst snd];
    rewrite ?cval_one, ?dot_tau_zero, ?dot_dtau_zero, ?dot_ddtau_zero by auto; tauto.
Qed.

Lemma three_meaning o segs id t conds : (1 <= o <= 5)%nat -> length (nth id segs []) = (o + 1)%nat ->
  Forall (cond_holds segs) (three id (tau o t) (dtau o t) (ddtau o t) conds) <->
  endpoint o (nth id segs []) t conds.
Proof.
  intros Ho L. destruct conds as [|p [|v [|a r]]]; cbn [three endpoint];
    rewrite ?Forall_cons_iff, ?Forall_nil_iff; unfold cond_holds; cbn [fst snd];
    rewrite ?cval_one, ?dot_tau, ?dot_dtau, ?dot_ddtau by auto; tauto.
Qed.

Lemma junctions_meaning o n D P segs : (1 <= o <= 5)%nat -> length segs = n ->
  Forall (fun r => length r = (o + 1)%nat) segs -> forall k id, (id + k + 1 = n)%nat ->
  Forall (cond_holds segs) (junctions o D P k id) <->
  (forall i, (id <= i)%nat -> (i + 1 < n)%nat ->
    poly o (nth i segs []) (nth i D 0) = nth (i + 1) P 0 /\
    poly o (nth (i + 1) segs []) 0 = nth (i + 1) P 0 /\
    dpoly o (nth i segs []) (nth i D 0) = dpoly o (nth (i + 1) segs []) 0 /\
    ddpoly o (nth i segs []) (nth i D 0) = ddpoly o (nth (i + 1) segs []) 0).
Proof.
  intros Ho L Hu.
  assert (Hl : forall i, (i < n)%nat -> length (nth i segs []) = (o + 1)%nat).
  { intros i Hi. rewrite Forall_forall in Hu. apply Hu, nth_In. lia. }
  induction k as [|k IH]; intros id Hk; cbn [junctions].
  - rewrite Forall_nil_iff. split; [|tauto]. intros _ i H1 H2. lia.
  - rewrite Forall_app, (IH (id + 1)%nat) by lia. unfold junction.
    rewrite !Forall_cons_iff, Forall_nil_iff. unfold cond_holds. cbn [fst snd].
    rewrite !cval_one, !cval_two, !dot_vneg.
    rewrite dot_tau, dot_tau_zero, dot_dtau, dot_dtau_zero, dot_ddtau, dot_ddtau_zero by (auto; apply Hl; lia).
    split.
    + intros [(A & B & E & F & _) HI] i H1 H2. destruct (Nat.eq_dec i id) as [->|Hne].
      * repeat split; lra.
      * apply HI; lia.
    + intros HI. split.
      * destruct (HI id ltac:(lia) ltac:(lia)) as (A & B & E & F). repeat split; lra.
      * intros i H1 H2. apply HI; lia.
Qed.

Lemma sys_conds_meaning o n D P va0 vaT segs : (1 <= o <= 5)%nat -> (1 <= n)%nat -> length segs = n ->
  Forall (fun r => length r = (o + 1)%nat) segs ->
  Forall (cond_holds segs) (sys_conds o n D P va0 vaT) <-> good o n D P va0 vaT segs.
Proof.
  intros Ho Hn L Hu.
  assert (Hl : forall i, (i < n)%nat -> length (nth i segs []) = (o + 1)%nat).
  { intros i Hi. rewrite Forall_forall in Hu. apply Hu, nth_In. lia. }
  unfold sys_conds, good. rewrite !Forall_app.
  rewrite three_zero_meaning, three_meaning by (auto; apply Hl; lia).
  rewrite (junctions_meaning o n D P segs Ho L Hu (n - 1) 0) by lia. unfold joined.
  split; intros (A & B & E); (split; [exact A|split; [exact B|]]); intros i.
  - intros Hi. apply E; lia.
  - intros _. apply E.
Qed.

Lemma three_fits w n id v0 v1 v2 conds : (id < n)%nat -> length v0 = w -> length v1 = w -> length v2 = w ->
  Forall (fun c : cond => fits w n (fst c) /\ NoDup (map fst (fst c))) (three id v0 v1 v2 conds).
Proof.
  intros Hi L0 L1 L2.
  assert (H : forall v x, length v = w ->
    (fun c : cond => fits w n (fst c) /\ NoDup (map fst (fst c))) ([(id, v)], x)).
  { intros v x Lv. simpl. split; [repeat constructor; auto|]. constructor; [simpl; tauto|constructor]. }
  destruct conds as [|p [|v [|a r]]]; cbn [three];
    repeat (apply Forall_cons; [apply H; assumption|]); apply Forall_nil.
Qed.

Lemma junctions_fits o n D P : (1 <= o <= 5)%nat -> forall k id, (id + k + 1 <= n)%nat ->
  Forall (fun c : cond => fits (o + 1) n (fst c) /\ NoDup (map fst (fst c))) (junctions o D P k id).
Proof.
  intros Ho. induction k as [|k IH]; intros id Hk; cbn [junctions]; [constructor|].
  apply Forall_app. split; [|apply IH; lia].
  unfold junction. repeat (apply Forall_cons; [|]); try apply Forall_nil; cbn [fst snd map];
    (split; [repeat constructor; cbn [fst snd]; rewrite ?vneg_length;
             try apply tau_length; try apply tau_zero_length; try apply dtau_length;
             try apply dtau_zero_length; try apply ddtau_length; try apply ddtau_zero_length; try assumption; lia
            |repeat constructor; simpl; try lia; tauto]).
Qed.

Lemma sys_conds_fits o n D P va0 vaT : (1 <= o <= 5)%nat -> (1 <= n)%nat ->
  Forall (fun c : cond => fits (o + 1) n (fst c) /\ NoDup (map fst (fst c))) (sys_conds o n D P va0 vaT).
Proof.
  intros Ho Hn. unfold sys_conds. rewrite !Forall_app. split; [|split].
  - apply three_fits; auto using tau_zero_length, dtau_zero_length, ddtau_zero_length. 
  - apply three_fits; auto using tau_length, dtau_length, ddtau_length. lia.
  - apply junctions_fits; auto. lia.
Qed.

Lemma rows_solution w n (cs : list cond) segs : 
  Forall (fun c : cond => fits w n (fst c) /\ NoDup (map fst (fst c))) cs ->
  length segs = n -> Forall (fun r => length r = w) segs ->
  mat_vec (map (fun c => rowvec w n (fst c)) cs) (concat segs) = map snd cs <-> Forall (cond_holds segs) cs.
Proof.
  intros Hf L Hu. induction Hf as [|c cs [H1 H2] Hf IH]; simpl; [split; auto|].
  rewrite Forall_cons_iff, <- IH. unfold cond_holds. rewrite dot_rowvec by auto.
  split.
  - intros E. injection E as E1 E2. auto.
  - intros [E1 E2]. f_equal; auto.
Qed.

(** ** The stored splines *)

Definition segments (o n : nat) (segs : list (list R)) : Prop :=
  length segs = n /\ Forall (fun r => length r = (o + 1)%nat) segs.

Lemma vec_back_nth (l : list R) k : length l = S k -> vec_back l = Ok (nth k l 0).
Proof.
  intros L. unfold vec_back. destruct l as [|a l] using rev_ind; [discriminate|].
  rewrite app_length in L. simpl in L. rewrite rev_app_distr. simpl.
  rewrite app_nth2 by lia. replace (k - length l)%nat with 0%nat by lia. reflexivity.
Qed.

(** The linear system built for given knots does not depend on the solver, its
    solutions are the good segments, and what the solver returns is stored. *)
Definition sys_matrix (o n : nat) (D P va0 vaT : list R) : list (list R) :=
  map (fun c : cond => rowvec (o + 1) n (fst c)) (sys_conds o n D P va0 vaT).
Definition sys_target (o n : nat) (D P va0 vaT : list R) : list R := map snd (sys_conds o n D P va0 vaT).

Lemma solve_and_store_explicit o n knots P va0 vaT :
  (1 <= o <= 5)%nat -> (1 <= n)%nat -> length knots = (n + 1)%nat ->
  increasing knots -> length P = (n + 1)%nat ->
  let A := sys_matrix o n (diffs knots) P va0 vaT in
  let b := sys_target o n (diffs knots) P va0 vaT in
  Forall (fun r => length r = (n * (o + 1))%nat) A /\ length b = length A /\
    (forall segs, segments o n segs ->
       (mat_vec A (concat segs) = b <-> good o n (diffs knots) P va0 vaT segs)) /\
    (forall solve c, length (solve (n * (o + 1))%nat A b) = (n * (o + 1))%nat ->
       solve_and_store solve o (reset c) knots P (Z.of_nat n) (Z.of_nat (n - 1))
         (Z.of_nat (length (sys_conds o n (diffs knots) P va0 vaT))) (Z.of_nat (n * (o + 1))) va0 vaT =
       Ok (true, holding (splines_of (chunks (o + 1) n (solve (n * (o + 1))%nat A b)) (diffs knots)))).
Proof.
  intros Ho Hn Lk Hi LP A b. unfold A, b, sys_matrix, sys_target. clear A b.
  set (D := diffs knots) in *. assert (LD : length D = n) by (unfold D; rewrite diffs_length; lia).
  set (cs := sys_conds o n D P va0 vaT).
  pose proof (sys_conds_fits o n D P va0 vaT Ho Hn) as Hf. fold cs in Hf.
  split; [apply Forall_map; eapply Forall_impl; [|exact Hf]; intros q [Hq _]; now apply rowvec_length|].
  split; [now rewrite !map_length|].
  split; [intros segs [Ls Hu]; rewrite rows_solution by auto; now apply sys_conds_meaning|].
  intros solve c Lx. set (m := length cs).
  unfold solve_and_store. rewrite !Nat2Z.id.
  rewrite (proj1 (durations_loop_spec knots n 0 [] ltac:(lia)) Hi). cbn [bind app].
  replace (map (fun i => nth (i + 1) knots 0 - nth i knots 0) (seq 0 n)) with D
    by (unfold D, diffs; rewrite Lk; f_equal; f_equal; lia).
  destruct P as [|p0 P']; [simpl in LP; lia|]. cbn [vec_front bind]. set (P := p0 :: P') in *.
  numR.
  pose proof (initial_state (o + 1) n m) as H0.
  assert (Hm : m = (length (three 0 (tau_zero o) (dtau_zero o) (ddtau_zero o) (nth 0 P 0%R :: va0)) +
    (length (three (n - 1) (tau o (nth (n - 1) D 0%R)) (dtau o (nth (n - 1) D 0%R)) (ddtau o (nth (n - 1) D 0%R))
      (nth n P 0%R :: vaT)) + 4 * (n - 1)))%nat).
  { unfold m, cs, sys_conds. rewrite !app_length, junctions_length by exact Ho. reflexivity. }
  destruct (initial_conditions_state o Ho n m [] (nth 0 P 0 :: va0) _ H0 ltac:(lia) ltac:(cbn [length] in *; lia))
    as (y1 & E1 & H1).
  change (nth 0 P 0) with p0 in E1. rewrite E1. cbn [bind].
  rewrite (vec_back_nth P n) by lia. rewrite (vec_back_nth D (n - 1)) by lia. cbn [bind].
  destruct (final_conditions_state o Ho n m _ (nth n P 0 :: vaT) (nth (n - 1) D 0) (n - 1) y1 H1
    ltac:(lia) ltac:(cbn [app]; lia)) as (y2 & E2 & H2).
  rewrite E2. cbn [bind].
  destruct (junctions_state o Ho n m D P (n - 1) _ 0 y2 H2 ltac:(lia) LD LP) as (y3 & E3 & H3).
  { cbn [app]. rewrite app_length. lia. }
  rewrite E3. cbn [bind]. cbn [app] in H3. rewrite <- app_assoc in H3.
  change (in_state (o + 1) n m cs [] y3) in H3. destruct H3 as (Ei & _ & Ej & Et).
  fold m in Ej, Et. rewrite Nat.sub_diag in Ej, Et. cbn [repeat] in Et. rewrite app_nil_r in Ej, Et.
  rewrite Ei. fold m. rewrite Z.eqb_refl. cbn [negb]. rewrite Ej, Et.
  set (x := solve _ _ _) in *. clearbody x.
  pose proof (extract_chunks o x D c) as Ext. rewrite LD in Ext. rewrite Ext by exact Lx. reflexivity.
Qed.

Lemma solve_and_store_system o n knots P va0 vaT :
  (1 <= o <= 5)%nat -> (1 <= n)%nat -> length knots = (n + 1)%nat ->
  increasing knots -> length P = (n + 1)%nat ->
  exists A b, Forall (fun r => length r = (n * (o + 1))%nat) A /\ length b = length A /\
    (forall segs, segments o n segs ->
       (mat_vec A (concat segs) = b <-> good o n (diffs knots) P va0 vaT segs)) /\
    (forall solve c, length (solve (n * (o + 1))%nat A b) = (n * (o + 1))%nat ->
       solve_and_store solve o (reset c) knots P (Z.of_nat n) (Z.of_nat (n - 1))
         (Z.of_nat (length (sys_conds o n (diffs knots) P va0 vaT))) (Z.of_nat (n * (o + 1))) va0 vaT =
       Ok (true, holding (splines_of (chunks (o + 1) n (solve (n * (o + 1))%nat A b)) (diffs knots)))).
Proof.
  intros Ho Hn Lk Hi LP. exists (sys_matrix o n (diffs knots) P va0 vaT), (sys_target o n (diffs knots) P va0 vaT).
  now apply solve_and_store_explicit.
Qed.

Lemma solve_and_store_ok solve o n knots P c va0 vaT :
  exact_solver solve -> (1 <= o <= 5)%nat -> (1 <= n)%nat -> length knots = (n + 1)%nat ->
  increasing knots -> length P = (n + 1)%nat ->
  (exists segs, segments o n segs /\ good o n (diffs knots) P va0 vaT segs) ->
  exists segs, segments o n segs /\ good o n (diffs knots) P va0 vaT segs /\
    solve_and_store solve o (reset c) knots P (Z.of_nat n) (Z.of_nat (n - 1))
      (Z.of_nat (length (sys_conds o n (diffs knots) P va0 vaT))) (Z.of_nat (n * (o + 1))) va0 vaT =
    Ok (true, holding (splines_of segs (diffs knots))).
Proof.
  intros Hs Ho Hn Lk Hi LP (segs & [Ls Hu] & Hg).
  destruct (solve_and_store_system o n knots P va0 vaT Ho Hn Lk Hi LP) as (A & b & HA & Lb & Hm & Hr).
  destruct (Hs (n * (o + 1))%nat A b HA Lb) as [Lx Ex].
  { exists (concat segs). split; [rewrite (concat_length_uniform (o + 1)); auto; now rewrite Ls|].
    apply Hm; [now split|exact Hg]. }
  exists (chunks (o + 1) n (solve (n * (o + 1))%nat A b)).
  assert (Hc : segments o n (chunks (o + 1) n (solve (n * (o + 1))%nat A b))).
  { split; [apply chunks_length|now apply chunks_uniform]. }
  split; [exact Hc|]. split; [|now apply Hr].
  apply Hm; [exact Hc|]. rewrite (chunks_concat (o + 1) n _ Lx). exact Ex.
Qed.
