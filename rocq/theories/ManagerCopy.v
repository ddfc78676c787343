(** * Model of copying a LocalSupport2CoefficientManager

    Source: /repo/curves/include/curves/LocalSupport2CoefficientManager.hpp. The
    class declares a destructor and no copy constructor, assignment or move
    (lines 52-53), so the compiler generates memberwise copies, which are also
    used for moves. Copying [std::map] allocates a new node for each element;
    copying keyToCoefficient_ copies the iterators, which still point to the
    nodes of the original.

    The model is that of Manager.v for two managers whose nodes live in one
    memory, so that an iterator of one may point to a node of the other. A
    destroyed manager has no nodes. *)

From Coq Require Import List Bool Arith NArith.
From Verif Require Import Base TimeOrder KeyGen Manager.
Import ListNotations.

Section Copy.
Context {T C : Type} `{TimeOps T}.
Local Notation node := (node T C).
Local Notation mgr := (mgr T C).

(** New nodes for the elements of a map.
    LocalSupport2CoefficientManager.hpp line 194: the copy of timeToCoefficient_. *)
Fixpoint renumber (i : nid) (l : list node) : list node :=
  match l with
  | [] => []
  | n :: r => Node i (n_time n) (n_key n) (n_coef n) :: renumber (S i) r
  end.

(** LocalSupport2CoefficientManager.hpp lines 190-194: memberwise copy of
    keyToCoefficient_ and timeToCoefficient_. *)
Definition copy_mgr (m : mgr) : mgr :=
  Mgr (renumber (fresh m) (nodes m)) (index m) (fresh m + length (nodes m)).

(** Dereferencing an iterator held by [own] in a memory with the nodes of [own]
    and [other]. LocalSupport2CoefficientManager.hpp line 191: the copied iterators. *)
Definition deref2 (own other : mgr) (i : nid) : outcome node :=
  match node_by_id (nodes own) i with
  | Some n => Ok n
  | None => match node_by_id (nodes other) i with Some n => Ok n | None => UB end
  end.

(** LocalSupport2CoefficientManager-inl.hpp lines 239-245 *)
Definition get_by_key2 (own other : mgr) (k : N) : outcome C :=
  match idx_find k (index own) with
  | None => Abort
  | Some i => let* n := deref2 own other i in Ok (n_coef n)
  end.

(** LocalSupport2CoefficientManager-inl.hpp lines 246-251 *)
Definition get_time_by_key2 (own other : mgr) (k : N) : outcome T :=
  match idx_find k (index own) with
  | None => Abort
  | Some i => let* n := deref2 own other i in Ok (n_time n)
  end.

(** LocalSupport2CoefficientManager-inl.hpp lines 228-237: writes through the iterator; returns both managers. *)
Definition update2 (own other : mgr) (k : N) (c : C) : outcome (mgr * mgr) :=
  match idx_find k (index own) with
  | None => Abort
  | Some i =>
      match node_by_id (nodes own) i with
      | Some _ => Ok (Mgr (set_coef i c (nodes own)) (index own) (fresh own), other)
      | None =>
          match node_by_id (nodes other) i with
          | Some _ => Ok (own, Mgr (set_coef i c (nodes other)) (index other) (fresh other))
          | None => UB
          end
      end
  end.

(** LocalSupport2CoefficientManager-inl.hpp lines 113-129; a new node gets an identity unused by both managers. *)
Definition insert2 (g : N) (own other : mgr) (t : T) (c : C) : outcome (N * mgr * mgr * N) :=
  match scan_at_time (nodes own) t with
  | Some n =>
      let* (own', other') := update2 own other (n_key n) c in
      Ok (g, own', other', n_key n)
  | None =>
      let k := next_key g in
      let i := Nat.max (fresh own) (fresh other) in
      let '(l, j, _) := map_insert (Node i t k c) (nodes own) in
      Ok (k, Mgr l (idx_set k j (index own)) (S i), other, k)
  end.

(** LocalSupport2CoefficientManager-inl.hpp lines 375-398 *)
Definition check_node2 (ceq : C -> C -> bool) (own other : mgr) (n : node) : outcome unit :=
  match idx_find (n_key n) (index own) with
  | None => UB
  | Some i =>
      let* n' := deref2 own other i in
      if N.eqb (n_key n) (n_key n') then
        if ceq (n_coef n') (n_coef n) then Ok tt else Abort
      else Abort
  end.

(** LocalSupport2CoefficientManager-inl.hpp lines 375-398, with iterators into both. *)
Definition check2 (ceq : C -> C -> bool) (own other : mgr) : outcome unit :=
  if Nat.eqb (length (index own)) (length (nodes own))
  then foldM (fun _ n => check_node2 ceq own other n) (nodes own) tt
  else Abort.

(** The destructor. LocalSupport2CoefficientManager-inl.hpp lines 22-24. *)
Definition destroy (m : mgr) : mgr := clear m.

End Copy.
