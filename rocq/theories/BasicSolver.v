(** * Solvers that always use the same columns *)

From Coq Require Import List Reals Lra Lia Bool Arith.
From Verif Require Import Num TimeInst Spline LinSpec.
Import ListNotations.
Local Open Scope R_scope.

(** All unknowns outside a set of columns are zero. *)
Definition supported (B : nat -> bool) (x : list R) : Prop := forall j, B j = false -> nth j x 0 = 0.

(** An exact solver which, for a given matrix, picks linearly independent columns and
    sets the unknowns of all other columns to zero, whatever the right hand side.
    This is how a QR decomposition with column pivoting solves a system in exact
    arithmetic: the columns are chosen from the matrix alone. *)
Definition basic_solver (solve : solver R) : Prop :=
  exact_solver solve /\
  forall (n : nat) (A : list (list R)), Forall (fun r => length r = n) A ->
    exists B : nat -> bool,
      (forall b, length b = length A -> (exists x, length x = n /\ mat_vec A x = b) -> supported B (solve n A b)) /\
      (forall x, length x = n -> supported B x -> mat_vec A x = repeat 0 (length A) -> x = repeat 0 n).

(** ** Gaussian elimination is such a solver *)

(** The pivot columns. *)
Fixpoint pivots (n : nat) (rows : list (row (S:=R))) : list bool :=
  match n with
  | O => []
  | S n' =>
      match find_pivot rows with
      | None => false :: pivots n' (map (fun r => (tl (fst r), snd r)) rows)
      | Some (p, others) => true :: pivots n' (map (eliminate p) others)
      end
  end.

(** They do not depend on the right hand side. *)
Lemma find_pivot_fst (rows rows' : list (row (S:=R))) : map fst rows = map fst rows' ->
  match find_pivot rows, find_pivot rows' with
  | None, None => True
  | Some (p, o), Some (p', o') => fst p = fst p' /\ map fst o = map fst o'
  | _, _ => False
  end.
Proof.
  revert rows'. induction rows as [|[r b] rows IH]; intros [|[r' b'] rows'] E; try discriminate; cbn [find_pivot]; [exact I|].
  cbn [map fst] in E. assert (Er : r = r') by congruence. assert (Et : map fst rows = map fst rows') by congruence.
  subst r'. destruct (neqb (hd #0%num r) #0%num).
  - specialize (IH rows' Et). destruct (find_pivot rows) as [[p o]|], (find_pivot rows') as [[p' o']|]; auto.
    destruct IH as [E1 E2]. cbn [map fst]. now rewrite E1, E2.
  - auto.
Qed.

Lemma pivots_fst n : forall rows rows', map fst rows = map fst rows' -> pivots n rows = pivots n rows'.
Proof.
  induction n as [|n IH]; intros rows rows' E; cbn [pivots]; [reflexivity|].
  pose proof (find_pivot_fst rows rows' E) as F.
  destruct (find_pivot rows) as [[p o]|], (find_pivot rows') as [[p' o']|]; try tauto; f_equal; apply IH.
  - destruct F as [E1 E2]. rewrite !map_map. revert o' E2. induction o as [|a o IHo]; intros [|a' o'] E2; try discriminate; [reflexivity|].
    cbn [map] in *. assert (Ea : fst a = fst a') by congruence. f_equal.
    + unfold eliminate. cbn [fst]. now rewrite E1, Ea.
    + apply IHo. congruence.
  - rewrite !map_map. revert rows' E F. induction rows as [|a l IHo]; intros [|a' l'] E2 F; try discriminate; [reflexivity|].
    cbn [map fst] in *. assert (Ea : fst a = fst a') by congruence. f_equal; [now rewrite Ea|].
    apply IHo; [congruence|auto].
Qed.

Lemma gauss_supported n : forall rows j, nth j (pivots n rows) false = false -> nth j (gauss_rows (S:=R) n rows) 0 = 0.
Proof.
  induction n as [|n IH]; intros rows j E; cbn [pivots gauss_rows] in *; [now destruct j|].
  destruct (find_pivot rows) as [[p o]|]; destruct j as [|j]; cbn [nth] in *; try discriminate; try reflexivity; now apply IH.
Qed.

Lemma pivots_independent n : forall rows x, Forall (fun r : row => length (fst r) = n) rows -> length x = n ->
  (forall j, nth j (pivots n rows) false = false -> nth j x 0 = 0) ->
  Forall (fun r : row => dot (fst r) x = 0) rows -> x = repeat 0 n.
Proof.
  induction n as [|n IH]; intros rows x Hl Lx Hx Hz; [now destruct x|].
  destruct x as [|y x]; [discriminate|]. cbn in Lx. rewrite Forall_forall in Hl, Hz.
  assert (Hne : forall r, In r rows -> fst r <> []).
  { intros r Hr E. apply Hl in Hr. rewrite E in Hr. discriminate. }
  assert (Htl : forall r, In r rows -> length (tl (fst r)) = n).
  { intros r Hr. pose proof (Hl r Hr) as L. destruct (fst r); simpl in *; [discriminate|lia]. }
  cbn [pivots] in Hx. cbn [repeat]. destruct (find_pivot rows) as [[p o]|] eqn:Ep.
  - destruct (find_pivot_some _ _ _ Ep) as [Hp Hin].
    assert (Hpin : In p rows) by (apply Hin; auto).
    assert (Hoin : forall r, In r o -> In r rows) by (intros; apply Hin; auto).
    assert (X : x = repeat 0 n).
    { apply (IH (map (eliminate p) o)); [| lia| |].
      - apply Forall_map, Forall_forall. intros r Hr. cbn [eliminate fst]. rewrite map_length, combine_length.
        rewrite (Htl r), (Htl p) by auto. apply Nat.min_id.
      - intros j Hj. apply (Hx (S j)). exact Hj.
      - apply Forall_map, Forall_forall. intros r Hr. unfold eliminate. cbn [fst]. numR.
        rewrite dot_sub by (rewrite (Htl r), (Htl p); auto).
        pose proof (Hz r (Hoin r Hr)) as E1. pose proof (Hz p Hpin) as E2.
        rewrite dot_hd_tl in E1 by auto. rewrite dot_hd_tl in E2 by auto.
        replace (dot (tl (fst r)) x) with (- (hd 0 (fst r) * y)) by lra.
        replace (dot (tl (fst p)) x) with (- (hd 0 (fst p) * y)) by lra. field. exact Hp. }
    f_equal; [|exact X]. pose proof (Hz p Hpin) as E. rewrite dot_hd_tl in E by auto.
    assert (Z : forall a k, dot a (repeat 0 k) = 0).
    { clear. induction a as [|u a IH]; intros [|k]; cbn; try reflexivity. rewrite IH. ring. }
    rewrite X, Z, Rplus_0_r in E. apply Rmult_integral in E. tauto.
  - pose proof (find_pivot_none _ Ep) as H0. f_equal; [apply (Hx 0%nat eq_refl)|].
    apply (IH (map (fun r => (tl (fst r), snd r)) rows)); [|lia| |].
    + apply Forall_map, Forall_forall. intros r Hr. now apply Htl.
    + intros j Hj. apply (Hx (S j)). exact Hj.
    + apply Forall_map, Forall_forall. intros r Hr. cbn [fst]. pose proof (Hz r Hr) as E.
      rewrite dot_hd_tl, (H0 r Hr) in E by auto. lra.
Qed.

Lemma combine_fst {A B} (a : list A) : forall b : list B, length b = length a -> map fst (combine a b) = a.
Proof. induction a as [|x a IH]; intros [|y b] L; cbn in *; try lia; [reflexivity|]. f_equal. apply IH. lia. Qed.

Lemma gauss_basic : basic_solver gauss.
Proof.
  split; [exact gauss_exact|]. intros n A HA.
  exists (fun j => nth j (pivots n (map (fun r => (r, 0)) A)) false).
  assert (Ef : map fst (map (fun r : list R => (r, 0)) A) = A) by (rewrite map_map; cbn; apply map_id).
  split.
  - intros b Lb _ j Hj. unfold gauss. apply gauss_supported.
    rewrite (pivots_fst n (combine A b) (map (fun r => (r, 0)) A)); [exact Hj|].
    now rewrite Ef, combine_fst.
  - intros x Lx Hs Hz. apply (pivots_independent n (map (fun r => (r, 0)) A)); auto.
    + apply Forall_map. cbn. exact HA.
    + apply Forall_map. cbn [fst]. rewrite Forall_forall. intros r Hr.
      apply (In_nth _ _ []) in Hr as (i & Hi & <-).
      assert (E : nth i (mat_vec A x) 0 = 0) by (rewrite Hz; apply nth_repeat).
      unfold mat_vec in E. rewrite (nth_indep _ 0 (dot [] x)) in E by now rewrite map_length.
      rewrite (map_nth (fun r => dot r x)) in E. exact E.
Qed.
