(** * Model of the key generator

    /repo/curves/src/KeyGenerator.cpp lines 14-19:
<<
size_t KeyGenerator::getNextKey() {
  static size_t key = 0;
  static boost::mutex mutex;
  boost::lock_guard<boost::mutex> guard(mutex);
  return ++key;
}
>>
    [size_t] is taken to be 64 bits wide. *)

From Coq Require Import List Bool NArith Arith.
Import ListNotations.
Local Open Scope N_scope.

(** [typedef size_t Key], /repo/curves/include/curves/Curve.hpp line 17. *)
Definition key := N.

(** Number of [size_t] values. Curve.hpp line 17; [size_t] is taken to be 64 bits wide. *)
Definition key_mod : N := 2 ^ 64.

(** KeyGenerator.cpp line 18, [++key] on the static variable: the new value of
    the counter, which is also the value returned.  Unsigned arithmetic wraps. *)
Definition next_key (g : N) : N := (g + 1) mod key_mod.

(** ** Small step semantics with threads

    A call of [getNextKey] by one thread is the sequence: acquire the mutex
    (line 17), read the counter, write the incremented counter (line 18), release
    the mutex when [guard] goes out of scope and return.  The read and the write
    of [++key] are separate steps, so that the mutex is what makes the model safe.
    Simplifications: sequential consistency (justified by the mutex); the
    initialisation of the two function-local statics happens before (C++11
    guarantees it is executed exactly once). *)
Inductive pc :=
| Idle                      (* outside getNextKey *)
| Locked                    (* line 17 done *)
| Loaded (v : N)            (* read key = v in line 18 *)
| Stored (v : N).           (* wrote key = v, mutex still held *)

(** The statics of KeyGenerator.cpp lines 15-16 and the state of the threads. *)
Record kstate := KState {
  k_counter : N;            (* static size_t key *)
  k_owner : option nat;     (* thread holding the mutex *)
  k_pc : nat -> pc;         (* program counter of each thread *)
  k_log : list (nat * N)    (* completed calls (thread, returned key), newest first *)
}.

(** Not in the source: one thread moves. *)
Definition upd_pc (f : nat -> pc) (t : nat) (p : pc) : nat -> pc :=
  fun t' => if Nat.eqb t' t then p else f t'.

(** One step of thread [t]; a thread that wants the mutex while it is taken
    does not move. KeyGenerator.cpp lines 14-19. *)
Definition kstep (t : nat) (s : kstate) : kstate :=
  match k_pc s t with
  | Idle =>
      match k_owner s with
      | None => KState (k_counter s) (Some t) (upd_pc (k_pc s) t Locked) (k_log s)
      | Some _ => s
      end
  | Locked => KState (k_counter s) (k_owner s) (upd_pc (k_pc s) t (Loaded (k_counter s))) (k_log s)
  | Loaded v => KState (next_key v) (k_owner s) (upd_pc (k_pc s) t (Stored (next_key v))) (k_log s)
  | Stored v => KState (k_counter s) None (upd_pc (k_pc s) t Idle) ((t, v) :: k_log s)
  end.

(** KeyGenerator.cpp lines 15-16: the counter starts at 0; no thread has called yet. *)
Definition kinit : kstate := KState 0 None (fun _ => Idle) [].

(** A schedule is the list of threads that take a step, in order.
    Not in the source: the semantics of threads. *)
Definition krun (sched : list nat) : kstate := fold_left (fun s t => kstep t s) sched kinit.

(** The keys returned by all calls completed under a schedule.
    Not in the source: used in statements. *)
Definition returned_keys (sched : list nat) : list N := map snd (k_log (krun sched)).
