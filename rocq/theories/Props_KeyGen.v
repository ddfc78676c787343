(** * C01: keys are unique under every thread schedule *)

From Coq Require Import List NArith Lia.
From Verif Require Import KeyGen KeyGenProofs.
Import ListNotations.
Local Open Scope N_scope.

(** For every number of threads and every schedule of their lock, load, store and
    unlock steps: if fewer than 2^64 calls complete, all returned keys differ. *)
Theorem C01_keys_unique : forall sched,
  N.of_nat (length (returned_keys sched)) < 2 ^ 64 -> NoDup (returned_keys sched).
Proof. exact returned_keys_nodup. Qed.

(** In order of completion the calls return 1, 2, 3, ..., wrapping modulo 2^64. *)
Theorem C01_keys_sequence : forall sched i,
  (i < length (returned_keys sched))%nat ->
  nth_error (rev (returned_keys sched)) i = Some ((N.of_nat i + 1) mod 2 ^ 64).
Proof. exact returned_keys_nth. Qed.

(** Without the bound on the number of calls the claim is false. *)
Theorem C01_unbounded_unique_refuted : exists sched, ~ NoDup (returned_keys sched).
Proof. exact keys_wrap. Qed.

(** Three threads interleaving so that each has to wait for another. *)
Example C01_example :
  returned_keys [0;1;1;0;2;0;0;1;0;1;1;2;1;2;2;0;2;2;2;2;2]%nat = [3; 2; 1] /\
  N.of_nat (length (returned_keys [0;1;1;0;2;0;0;1;0;1;1;2;1;2;2;0;2;2;2;2;2]%nat)) < 2 ^ 64.
Proof. split; vm_compute; reflexivity. Qed.

Print Assumptions C01_keys_unique.
Print Assumptions C01_keys_sequence.
Print Assumptions C01_unbounded_unique_refuted.
