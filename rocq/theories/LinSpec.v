(** * What is assumed about Eigen's linear solver, and that it can be met *)

From Coq Require Import List Reals Lra Lia Bool Arith.
From Verif Require Import Num TimeInst Spline.
Import ListNotations.
Local Open Scope R_scope.

(** Scalar product and matrix times vector. *)
Fixpoint dot (a b : list R) : R :=
  match a, b with
  | x :: r, y :: s => x * y + dot r s
  | _, _ => 0
  end.

Definition mat_vec (A : list (list R)) (x : list R) : list R := map (fun r => dot r x) A.

(** [solve n A b] returns a solution of [A x = b] in [n] unknowns whenever there is
    one.  This is what a rank revealing QR decomposition delivers in exact
    arithmetic; when the system has no solution nothing is assumed. *)
Definition exact_solver (solve : solver R) : Prop :=
  forall (n : nat) (A : list (list R)) (b : list R),
    Forall (fun r => length r = n) A -> length b = length A ->
    (exists x, length x = n /\ mat_vec A x = b) ->
    length (solve n A b) = n /\ mat_vec A (solve n A b) = b.

(** The answer always has the right length (also for an unsolvable system). *)
Definition sized_solver (solve : solver R) : Prop :=
  forall n A b, length (solve n A b) = n.

(** ** Gaussian elimination satisfies the assumption *)

Section Gauss.
Context {S : Type} `{Num S}.
Local Open Scope num_scope.

Definition row := (list S * S)%type.

(** The first row with a non-zero leading entry, and the other rows. *)
Fixpoint find_pivot (rows : list row) : option (row * list row) :=
  match rows with
  | [] => None
  | (r, b) :: rest =>
      if neqb (hd #0 r) #0 then
        match find_pivot rest with
        | Some (p, others) => Some (p, (r, b) :: others)
        | None => None
        end
      else Some ((r, b), rest)
  end.

(** Subtract a multiple of the pivot row to clear the leading entry, and drop it. *)
Definition eliminate (p : row) (r : row) : row :=
  let f := hd #0 (fst r) / hd #0 (fst p) in
  (map (fun ab => fst ab - f * snd ab) (combine (tl (fst r)) (tl (fst p))), snd r - f * snd p).

Fixpoint gauss_rows (n : nat) (rows : list row) : list S :=
  match n with
  | O => []
  | Datatypes.S n' =>
      match find_pivot rows with
      | None => #0 :: gauss_rows n' (map (fun r => (tl (fst r), snd r)) rows)
      | Some (p, others) =>
          let x := gauss_rows n' (map (eliminate p) others) in
          (snd p - inner_product (tl (fst p)) x #0) / hd #0 (fst p) :: x
      end
  end.

Definition gauss (n : nat) (A : list (list S)) (b : list S) : list S := gauss_rows n (combine A b).

End Gauss.

Lemma inner_product_dot a b z : inner_product a b z = z + dot a b.
Proof.
  revert b z. induction a as [|x a IH]; intros [|y b] z; simpl; numR; try ring.
  rewrite IH. ring.
Qed.

Lemma dot_sub (f : R) a b x : length a = length b ->
  dot (map (fun ab => fst ab - f * snd ab) (combine a b)) x = dot a x - f * dot b x.
Proof.
  revert b x. induction a as [|u a IH]; intros [|v b] x L; simpl in *; try discriminate; try lra.
  destruct x as [|y x]; simpl; [lra|]. rewrite IH by lia. ring.
Qed.

Lemma gauss_length n : forall rows, length (gauss_rows (S:=R) n rows) = n.
Proof.
  induction n as [|n IH]; intros rows; simpl; auto.
  destruct (find_pivot rows) as [[p others]|]; simpl; now rewrite IH.
Qed.

Definition solves (x : list R) (r : row (S:=R)) : Prop := dot (fst r) x = snd r.

Lemma find_pivot_some (rows : list (row (S:=R))) p others : find_pivot rows = Some (p, others) ->
  hd 0 (fst p) <> 0 /\ (forall r, In r rows <-> r = p \/ In r others).
Proof.
  revert p others. induction rows as [|[r b] rest IH]; intros p others E; cbn [find_pivot] in E; [discriminate|].
  destruct (neqb (hd #0%num r) #0%num) eqn:Ez.
  - destruct (find_pivot rest) as [[p' o']|]; [|discriminate]. injection E as -> <-.
    destruct (IH _ _ eq_refl) as [Hp Hin]. split; [exact Hp|].
    intros q. simpl. rewrite Hin. intuition.
  - injection E as <- <-. apply Reqb_neq in Ez. split; [exact Ez|]. intros q. simpl. intuition.
Qed.

Lemma find_pivot_none (rows : list (row (S:=R))) : find_pivot rows = None ->
  forall r, In r rows -> hd 0 (fst r) = 0.
Proof.
  induction rows as [|[r b] rest IH]; intros E q Hq; cbn [find_pivot] in E; simpl in Hq; [tauto|].
  destruct (neqb (hd #0%num r) #0%num) eqn:Ez; [|discriminate].
  destruct (find_pivot rest) as [[p' o']|]; [discriminate|].
  destruct Hq as [<-|Hq]; [|now apply IH]. simpl. now apply Reqb_eq in Ez.
Qed.

Lemma dot_hd_tl (r : list R) y x : r <> [] -> dot r (y :: x) = hd 0 r * y + dot (tl r) x.
Proof. destruct r; simpl; [congruence|reflexivity]. Qed.

Lemma gauss_rows_exact n : forall rows : list (row (S:=R)),
  Forall (fun r => length (fst r) = n) rows ->
  (exists x, length x = n /\ Forall (solves x) rows) ->
  Forall (solves (gauss_rows n rows)) rows.
Proof.
  induction n as [|n IH]; intros rows Hl (x & Lx & Hx).
  { destruct x; [|discriminate]. exact Hx. }
  destruct x as [|y x]; [discriminate|]. simpl in Lx. injection Lx as Lx.
  rewrite Forall_forall in Hl, Hx.
  assert (Hne : forall r, In r rows -> fst r <> []).
  { intros r Hr E. apply Hl in Hr. rewrite E in Hr. discriminate. }
  assert (Htl : forall r, In r rows -> length (tl (fst r)) = n).
  { intros r Hr. pose proof (Hl r Hr) as L. destruct (fst r); simpl in *; [discriminate|lia]. }
  simpl gauss_rows. destruct (find_pivot rows) as [[p others]|] eqn:Ep.
  - destruct (find_pivot_some _ _ _ Ep) as [Hp Hin].
    assert (Hpin : In p rows) by (apply Hin; auto).
    assert (Hoin : forall r, In r others -> In r rows) by (intros; apply Hin; auto).
    set (x' := gauss_rows n (map (eliminate p) others)).
    assert (Hrec : Forall (solves x') (map (eliminate p) others)).
    { apply IH.
      - apply Forall_map, Forall_forall. intros r Hr. simpl. rewrite map_length, combine_length.
        rewrite (Htl r) by auto. rewrite (Htl p) by auto. apply Nat.min_id.
      - exists x. split; [exact Lx|]. apply Forall_map, Forall_forall. intros r Hr.
        unfold solves, eliminate. cbn [fst snd]. numR.
        rewrite dot_sub by (rewrite (Htl r), (Htl p); auto).
        pose proof (Hx r (Hoin r Hr)) as E1. pose proof (Hx p Hpin) as E2. unfold solves in E1, E2.
        rewrite dot_hd_tl in E1 by auto. rewrite dot_hd_tl in E2 by auto.
        rewrite <- E1, <- E2. field. exact Hp. }
    rewrite Forall_map, Forall_forall in Hrec.
    set (x0 := ((snd p - inner_product (tl (fst p)) x' #0) / hd #0 (fst p))%num).
    assert (Hx0 : hd 0 (fst p) * x0 + dot (tl (fst p)) x' = snd p).
    { unfold x0. rewrite inner_product_dot. numR. field. exact Hp. }
    change (Forall (solves (x0 :: x')) rows). clearbody x0. apply Forall_forall. intros r Hr. unfold solves. rewrite dot_hd_tl by auto.
    apply Hin in Hr as [->|Hr]; [exact Hx0|].
    pose proof (Hrec r Hr) as E. unfold solves, eliminate in E. cbn [fst snd] in E. numR.
    rewrite dot_sub in E by (rewrite (Htl r), (Htl p); auto).
    assert (E' : dot (tl (fst r)) x' = snd r - hd 0 (fst r) / hd 0 (fst p) * (snd p - dot (tl (fst p)) x')).
    { lra. }
    rewrite E'. replace (snd p - dot (tl (fst p)) x') with (hd 0 (fst p) * x0) by lra.
    field. exact Hp.
  - pose proof (find_pivot_none _ Ep) as Hz.
    set (rows' := map (fun r : row => (tl (fst r), snd r)) rows).
    assert (Hrec : Forall (solves (gauss_rows n rows')) rows').
    { apply IH.
      - unfold rows'. apply Forall_map, Forall_forall. intros r Hr. now apply Htl.
      - exists x. split; [exact Lx|]. unfold rows'. apply Forall_map, Forall_forall. intros r Hr.
        unfold solves. simpl. pose proof (Hx r Hr) as E. unfold solves in E.
        rewrite dot_hd_tl, (Hz r Hr) in E by auto. lra. }
    unfold rows' in Hrec at 2. rewrite Forall_map, Forall_forall in Hrec.
    apply Forall_forall. intros r Hr. unfold solves. rewrite dot_hd_tl, (Hz r Hr) by auto.
    pose proof (Hrec r Hr) as E. unfold solves in E. simpl in E. numR. unfold row in *. fold rows'. rewrite E. ring.
Qed.

Lemma mat_vec_solves A b x : length b = length A ->
  (mat_vec A x = b <-> Forall (solves x) (combine A b)).
Proof.
  revert b. induction A as [|r A IH]; intros [|c b] L; simpl in *; try discriminate.
  - split; constructor.
  - rewrite Forall_cons_iff, <- IH by lia. unfold solves. simpl. split.
    + intros E. injection E as -> ->. auto.
    + intros [-> ->]. reflexivity.
Qed.

Theorem gauss_exact : exact_solver gauss.
Proof.
  intros n A b Hl Hb (x & Lx & Hx). unfold gauss. split; [apply gauss_length|].
  apply mat_vec_solves; [exact Hb|]. apply gauss_rows_exact.
  - apply Forall_forall. intros [r c] Hr. apply in_combine_l in Hr. rewrite Forall_forall in Hl. auto.
  - exists x. split; [exact Lx|]. now apply mat_vec_solves.
Qed.

Theorem gauss_sized : sized_solver gauss.
Proof. intros n A b. apply gauss_length. Qed.
