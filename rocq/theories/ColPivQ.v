(** * The column pivoting solver on rational systems *)

From Coq Require Import List Reals Lra Lia Bool Arith ZArith QArith Qreals Permutation.
From Verif Require Import Num TimeInst Spline LinSpec BasicSolver ColPiv.
Import ListNotations.
Local Open Scope R_scope.

Lemma red_R q : Q2R (Qred q) = Q2R q.
Proof. apply Qeq_eqR, Qred_correct. Qed.

Lemma add_R (a b : Q) : Q2R (nadd a b) = Q2R a + Q2R b.
Proof. cbn [nadd Q_Num]. now rewrite red_R, Q2R_plus. Qed.
Lemma sub_R (a b : Q) : Q2R (nsub a b) = Q2R a - Q2R b.
Proof. cbn [nsub Q_Num]. now rewrite red_R, Q2R_minus. Qed.
Lemma mul_R (a b : Q) : Q2R (nmul a b) = Q2R a * Q2R b.
Proof. cbn [nmul Q_Num]. now rewrite red_R, Q2R_mult. Qed.
Lemma div_R (a b : Q) : neqb b (nofZ 0) = false -> Q2R (ndiv a b) = Q2R a / Q2R b.
Proof.
  intros Hb. cbn [ndiv neqb nofZ Q_Num] in *. rewrite red_R. apply Q2R_div. intros E. apply Qeq_bool_iff in E. change (inject_Z 0) with 0%Q in Hb. congruence.
Qed.
Lemma zero_R : Q2R (nofZ 0) = 0.
Proof. unfold Q2R. cbn. lra. Qed.
Lemma ltb_R (a b : Q) : @nltb R _ (Q2R a) (Q2R b) = nltb a b.
Proof.
  cbn [nltb R_Num Q_Num]. destruct (Qcompare a b) eqn:E.
  - apply Qeq_alt in E. apply Qeq_eqR in E. apply Rltb_ge. lra.
  - apply Qlt_alt in E. apply Qlt_Rlt in E. now apply Rltb_lt.
  - apply Qgt_alt in E. apply Qlt_Rlt in E. apply Rltb_ge. lra.
Qed.
Lemma eqb_R (a b : Q) : @neqb R _ (Q2R a) (Q2R b) = neqb a b.
Proof.
  destruct (neqb a b) eqn:E.
  - cbn [neqb Q_Num] in E. apply Qeq_bool_iff, Qeq_eqR in E. now apply Reqb_eq.
  - apply Reqb_neq. intros X. apply eqR_Qeq, Qeq_bool_iff in X. cbn [neqb Q_Num] in E. congruence.
Qed.

Lemma eqb0_R (a : Q) : @neqb R _ (Q2R a) (nofZ 0) = neqb a (nofZ 0).
Proof. rewrite <- eqb_R, zero_R. reflexivity. Qed.

Definition vec_R (v : list Q) : list R := map Q2R v.
Definition col_R (c : column (S:=Q)) : column (S:=R) := (fst c, vec_R (snd c)).
Definition sol_R (x : list (nat * Q)) : list (nat * R) := map (fun p => (fst p, Q2R (snd p))) x.

Lemma ip_R a : forall b z, Q2R (inner_product a b z) = inner_product (vec_R a) (vec_R b) (Q2R z).
Proof.
  induction a as [|x a IH]; intros [|y b] z; cbn [inner_product vec_R map]; try reflexivity.
  rewrite IH, add_R, mul_R. reflexivity.
Qed.

Lemma ip0_R a b : Q2R (inner_product a b (nofZ 0)) = inner_product (vec_R a) (vec_R b) (nofZ 0).
Proof. rewrite ip_R, zero_R. reflexivity. Qed.

Lemma square_R v : Q2R (square v) = square (vec_R v).
Proof. apply ip0_R. Qed.

Lemma argmax_R cols : forall i best norm, argmax (map col_R cols) i best (Q2R norm) = argmax cols i best norm.
Proof.
  induction cols as [|c cols IH]; intros i best norm; cbn [argmax map]; [reflexivity|].
  cbn [col_R snd]. rewrite <- square_R, ltb_R. destruct (nltb norm (square (snd c))); apply IH.
Qed.

Lemma choose_R cols : choose (map col_R cols) =
  match choose cols with Some (p, rest) => Some (col_R p, map col_R rest) | None => None end.
Proof.
  destruct cols as [|c r]; [reflexivity|]. unfold choose. cbn [map].
  change (snd (col_R c)) with (vec_R (snd c)). rewrite <- square_R, argmax_R.
  set (k := argmax r 1 0 (square (snd c))).
  change (col_R c :: map col_R r) with (map col_R (c :: r)). rewrite (map_nth col_R (c :: r) c k).
  cbn [col_R snd]. rewrite <- square_R, eqb0_R.
  destruct (neqb _ _); [reflexivity|]. do 2 f_equal. destruct k as [|k]; [reflexivity|].
  rewrite map_app. cbn [map]. now rewrite firstn_map, skipn_map.
Qed.

Lemma choose_norm (cols : list (column (S:=Q))) p rest : choose cols = Some (p, rest) -> neqb (square (snd p)) (nofZ 0) = false.
Proof.
  destruct cols as [|c r]; [discriminate|]. unfold choose. set (k := argmax _ _ _ _).
  destruct (neqb (square (snd (nth k (c :: r) c))) (nofZ 0)) eqn:E; [discriminate|]. intros X.
  assert (E1 : nth k (c :: r) c = p) by congruence. now rewrite <- E1.
Qed.

Lemma project_R q v : neqb (square q) (nofZ 0) = false -> vec_R (project q v) = project (vec_R q) (vec_R v).
Proof.
  intros Hq. unfold project. rewrite <- ip0_R, <- square_R, <- div_R by exact Hq.
  set (f := ndiv (inner_product v q (nofZ 0)) (square q)). clearbody f. clear Hq.
  unfold vec_R. revert q. induction v as [|x v IH]; intros [|y q]; cbn [map combine]; try reflexivity.
  rewrite IH, sub_R, mul_R. reflexivity.
Qed.

Lemma entry_R j x : Q2R (entry j x) = entry j (sol_R x).
Proof.
  unfold entry, sol_R. induction x as [|[i v] x IH]; cbn [find map fst snd]; [apply zero_R|].
  destruct (Nat.eqb i j); [reflexivity|exact IH].
Qed.

Lemma back_R q cols x : Q2R (back q cols x) = back (vec_R q) (map col_R cols) (sol_R x).
Proof.
  unfold back. induction cols as [|c cols IH]; cbn [fold_right map]; [apply zero_R|].
  rewrite add_R, mul_R, IH, entry_R, ip0_R. reflexivity.
Qed.

Lemma qr_R fuel : forall cols b, sol_R (qr fuel cols b) = qr fuel (map col_R cols) (vec_R b).
Proof.
  induction fuel as [|fuel IH]; intros cols b; cbn [qr]; [reflexivity|]. rewrite choose_R.
  destruct (choose cols) as [[[j q] rest]|] eqn:E; [|reflexivity]. pose proof (choose_norm _ _ _ E) as Hq. cbn [snd] in Hq.
  change (col_R (j, q)) with (j, vec_R q). cbv beta iota zeta. rewrite <- project_R by exact Hq.
  assert (Ec : map (fun c : nat * list R => (fst c, project (vec_R q) (snd c))) (map col_R rest) =
               map col_R (map (fun c : nat * list Q => (fst c, project q (snd c))) rest)).
  { rewrite !map_map. apply map_ext. intros c. unfold col_R. cbn [fst snd]. now rewrite <- project_R by exact Hq. }
  rewrite Ec, <- IH. set (x := qr fuel _ (project q b)). cbn [sol_R map fst snd]. fold (sol_R x).
  rewrite div_R, sub_R, ip0_R, back_R, square_R by exact Hq. reflexivity.
Qed.

(** Running the solver over the rationals gives what it returns over the reals. *)
Lemma pivoted_R n A b : pivoted n (map vec_R A) (vec_R b) = vec_R (pivoted n A b).
Proof.
  unfold pivoted. cbv zeta. unfold vec_R at 4. rewrite map_map. apply map_ext. intros j.
  rewrite map_length, entry_R, qr_R. apply (f_equal (fun c => entry j (qr (Nat.min n (length A)) c (vec_R b)))). unfold columns. rewrite map_map. apply map_ext. intros i.
  unfold col_R. cbn [fst snd]. f_equal. unfold vec_R at 2. rewrite !map_map. apply map_ext. intros r.
  change (@nofZ R _ 0) with 0. rewrite <- zero_R. unfold vec_R. now rewrite map_nth.
Qed.
