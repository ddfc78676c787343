(** * Outcomes of C++ calls and general list facts *)

From Coq Require Import List Bool Arith NArith ZArith Lia Permutation Sorting.Sorted.
Import ListNotations.

(** The result of running a piece of the modelled C++ code.
    [Ok a]   the call returns normally with [a];
    [Abort]  a glog CHECK fails and the process is terminated;
    [Throw]  a C++ exception leaves the call;
    [UB]     the call has undefined behaviour. Not in the source: the ways a call can end. *)
Inductive outcome (A : Type) : Type :=
| Ok (a : A)
| Abort
| Throw
| UB.
Arguments Ok {A} a.
Arguments Abort {A}.
Arguments Throw {A}.
Arguments UB {A}.

(** Sequencing of statements: the rest runs only after a normal return.
    Not in the source: the semantics of a sequence of statements. *)
Definition bind {A B} (x : outcome A) (f : A -> outcome B) : outcome B :=
  match x with
  | Ok a => f a
  | Abort => Abort
  | Throw => Throw
  | UB => UB
  end.

Notation "'let*' x ':=' e 'in' k" := (bind e (fun x => k))
  (at level 200, x pattern, e at level 200, k at level 200, right associativity).

(** Did the call return normally? Not in the source: used in statements only. *)
Definition is_ok {A} (x : outcome A) : bool :=
  match x with Ok _ => true | _ => false end.

(** Sequential execution of a loop body over a list, stopping at the first
    outcome that is not [Ok]. Not in the source: the semantics of a range loop. *)
Fixpoint foldM {A S} (f : S -> A -> outcome S) (l : list A) (s : S) : outcome S :=
  match l with
  | [] => Ok s
  | a :: r => let* s' := f s a in foldM f r s'
  end.

Lemma bind_ok_inv {A B} (x : outcome A) (f : A -> outcome B) b :
  bind x f = Ok b -> exists a, x = Ok a /\ f a = Ok b.
Proof. destruct x; simpl; intros H; try discriminate; eauto. Qed.

Lemma foldM_app {A S} (f : S -> A -> outcome S) l1 l2 s :
  foldM f (l1 ++ l2) s = bind (foldM f l1 s) (fun s' => foldM f l2 s').
Proof.
  revert s; induction l1 as [|a l1 IH]; intros s; simpl; [reflexivity|].
  destruct (f s a); simpl; auto.
Qed.
