(** * Specification vocabulary for the coefficient manager

    Independent of how the model functions compute: a manager is described by
    the set of facts "at time [t] there is a coefficient [c] with key [k]". *)

From Coq Require Import List Bool Arith NArith Permutation Sorting.Sorted.
From Verif Require Import Base TimeOrder KeyGen Manager.
Import ListNotations.

Section Spec.
Context {T C : Type} `{TimeOps T}.

(** The value that assigning [tcs] from left to right leaves at [t], if any. *)
Fixpoint last_value (tcs : list (T * C)) (t : T) : option C :=
  match tcs with
  | [] => None
  | (t', c) :: r =>
      match last_value r t with
      | Some c' => Some c'
      | None => if teq t' t then Some c else None
      end
  end.

(** At time [t] the manager holds coefficient [c] under key [k]. *)
Definition holds (m : mgr T C) (t : T) (k : N) (c : C) : Prop :=
  exists n, In n (nodes m) /\ teq (n_time n) t = true /\ n_key n = k /\ n_coef n = c.

(** Some coefficient exists at time [t]. *)
Definition present (m : mgr T C) (t : T) : Prop := exists k c, holds m t k c.

(** [k] is the key of some coefficient. *)
Definition known_key (m : mgr T C) (k : N) : Prop := In k (get_keys m).

(** Two managers have the same coefficients with the same keys. *)
Definition same_contents (m m' : mgr T C) : Prop :=
  forall t k c, holds m t k c <-> holds m' t k c.

(** Order of times. *)
Definition t_lt (a b : T) : Prop := tlt a b = true.

(** Consistency of the two internal maps: times strictly increasing, node
    identities and keys pairwise different, and the key map consists of exactly
    one entry per node, leading to that node. *)
Record consistent (m : mgr T C) : Prop := {
  c_sorted : StronglySorted t_lt (get_times m);
  c_ids : NoDup (map n_id (nodes m));
  c_fresh : Forall (fun n => n_id n < fresh m) (nodes m);
  c_keys : NoDup (get_keys m);
  c_index : Permutation (index m) (map (fun n => (n_key n, n_id n)) (nodes m))
}.

(** Every key was handed out by the generator before its state became [g]. *)
Definition keys_below (g : N) (m : mgr T C) : Prop :=
  Forall (fun k => (0 < k <= g)%N) (get_keys m).

(** All managers of a process are consistent and no key occurs twice in the process. *)
Record world_ok (w : world T C) : Prop := {
  wo_cons : Forall consistent (w_mgrs w);
  wo_below : Forall (keys_below (w_gen w)) (w_mgrs w);
  wo_disjoint : NoDup (concat (map get_keys (w_mgrs w)));
  wo_gen : (w_gen w < key_mod)%N
}.

(** Upper bound on the number of keys a call may request. *)
Definition call_cost (o : call T C) : N :=
  match o with
  | CInsert _ _ | CAddEnd _ _ => 1
  | CInsertMany ts _ => N.of_nat (length ts)
  | _ => 0
  end.

Definition history_cost (h : list (nat * call T C)) : N :=
  fold_right (fun io s => (call_cost (snd io) + s)%N) 0%N h.

(** Calls with defined behaviour, by what the caller can observe. *)
Definition call_defined (m : mgr T C) (o : call T C) : Prop :=
  match o with
  | CAddEnd t _ => empty m = false \/ tlt tzero t = false
  | CMove i t _ => i < size m /\ ~ present m t
  | CBatch ts cs =>
      length ts <> length cs \/
      exists t0 r p n, ts = t0 :: r /\ get_times m = p ++ n /\
        length ts <= length n /\
        match n with [] => False | a :: _ => teq a t0 = true end
  | _ => True
  end.

(** All calls of a history are defined in the state in which they are made. *)
Fixpoint history_defined (w : world T C) (h : list (nat * call T C)) : Prop :=
  match h with
  | [] => True
  | io :: r =>
      (forall m, nth_error (w_mgrs w) (fst io) = Some m -> call_defined m (snd io)) /\
      (forall w', exec_world w io = Ok w' -> history_defined w' r)
  end.

(** ** The manager without keys: a sorted association list

    What a user sees who never looks at keys. *)

Definition contents (m : mgr T C) : list (T * C) := map (fun n => (n_time n, n_coef n)) (nodes m).

Fixpoint al_insert (t : T) (c : C) (l : list (T * C)) : list (T * C) :=
  match l with
  | [] => [(t, c)]
  | (t', c') :: r =>
      if tlt t t' then (t, c) :: (t', c') :: r
      else if tlt t' t then (t', c') :: al_insert t c r
      else (t', c) :: r
  end.

Definition al_remove (t : T) (l : list (T * C)) : list (T * C) :=
  filter (fun tc => negb (teq (fst tc) t)) l.

Definition al_has (t : T) (l : list (T * C)) : bool := existsb (fun tc => teq (fst tc) t) l.

Definition al_max (l : list (T * C)) : T := last (map fst l) tzero.

(** Overwrite the values from the first position with time [t0] on. *)
Fixpoint al_write (l : list (T * C)) (ts : list T) (cs : list C) {struct ts} : outcome (list (T * C)) :=
  match ts, cs, l with
  | t :: ts', c :: cs', (t', _) :: r =>
      if teq t' t then let* r' := al_write r ts' cs' in Ok ((t', c) :: r') else Abort
  | _ :: _, _ :: _, [] => UB
  | _, _, _ => Ok l
  end.

Fixpoint al_batch (l : list (T * C)) (t0 : T) (ts : list T) (cs : list C) : outcome (list (T * C)) :=
  match l with
  | [] => UB
  | (t', c') :: r =>
      if teq t' t0 then al_write l ts cs
      else let* r' := al_batch r t0 ts cs in Ok ((t', c') :: r')
  end.

Fixpoint al_delete (i : nat) (l : list (T * C)) : list (T * C) :=
  match l, i with
  | [], _ => []
  | _ :: r, O => r
  | x :: r, S i' => x :: al_delete i' r
  end.

(** Calls that do not mention keys. *)
Definition key_free (o : call T C) : bool :=
  match o with CUpdate _ _ | CUpdateMany _ => false | _ => true end.

(** Effect of a key free call on the association list. *)
Definition al_call (l : list (T * C)) (o : call T C) : outcome (list (T * C)) :=
  match o with
  | CInsert t c => Ok (al_insert t c l)
  | CInsertMany ts cs =>
      if Nat.eqb (length ts) (length cs)
      then Ok (fold_left (fun l tc => al_insert (fst tc) (snd tc) l) (combine ts cs) l)
      else Abort
  | CAddEnd t c =>
      if tlt (al_max l) t then match l with [] => UB | _ => Ok (l ++ [(t, c)]) end else Abort
  | CRemove t => if al_has t l then Ok (al_remove t l) else Abort
  | CBatch ts cs =>
      if Nat.eqb (length ts) (length cs)
      then match ts with [] => UB | t0 :: _ => al_batch l t0 ts cs end
      else Abort
  | CMove i t c => Ok (al_insert t c (al_delete i l))
  | CClear => Ok []
  | _ => Ok l
  end.

Definition al_history (l : list (T * C)) (h : list (call T C)) : outcome (list (T * C)) :=
  foldM al_call h l.

(** Histories in which modifyCoefficient moves an existing coefficient to a free time. *)
Fixpoint moves_ok (l : list (T * C)) (h : list (call T C)) : Prop :=
  match h with
  | [] => True
  | o :: r =>
      match o with CMove i t _ => i < length l /\ al_has t l = false | _ => True end /\
      (forall l', al_call l o = Ok l' -> moves_ok l' r)
  end.

(** A list of calls on one manager. *)
Definition exec_calls (g : N) (m : mgr T C) (h : list (call T C)) : outcome (N * mgr T C) :=
  foldM (fun gm o => exec_call (fst gm) (snd gm) o) h (g, m).

Definition calls_cost (h : list (call T C)) : N :=
  fold_right (fun o s => (call_cost o + s)%N) 0%N h.

(** The states of a manager that can be reached in a process with [g] as the
    current value of the key counter. *)
Definition reachable (g : N) (m : mgr T C) : Prop :=
  exists n h w i, history_defined (world_init n) h /\ (history_cost h < key_mod)%N /\
    exec_history (world_init n) h = Ok w /\ nth_error (w_mgrs w) i = Some m /\ w_gen w = g.

End Spec.
