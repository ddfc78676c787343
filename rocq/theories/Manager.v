(** * Model of LocalSupport2CoefficientManager

    Source: /repo/curves/include/curves/LocalSupport2CoefficientManager-inl.hpp
    (line numbers below refer to it) and LocalSupport2CoefficientManager.hpp.

    Data layout (LocalSupport2CoefficientManager.hpp, private members):
<<
  boost::unordered_map<Key, CoefficientIter> keyToCoefficient_;
  TimeToKeyCoefficientMap timeToCoefficient_;   // std::map<Time, KeyCoefficient>
>>
    Simplifications.
    - [std::map] is the list of its nodes in order; tree shape, comparisons made
      during a search and allocation are not modelled.  What a search returns is
      determined by the order alone when the comparator is a strict weak order.
    - A node has an identity [n_id], standing for its address.  Identities are not
      reused after an erase: using an iterator to an erased node is UB anyway.
    - [boost::unordered_map] is an association list; iteration order is never used
      by the modelled functions.
    - CHECK_NOTNULL on output pointers: the outputs are results here.
    - The functions [equals], [hasCoefficientWithKey], [removeCoefficientWithKey],
      [getCoefficientsInRange] and [getCoefficients] do not compile when
      instantiated (iterators of different containers are assigned to each other,
      operator-> is applied to a value), so there is no behaviour to model. *)

From Coq Require Import List Bool Arith NArith.
From Verif Require Import Base TimeOrder KeyGen.
Import ListNotations.

(** Identity (address) of a node of the map.
    LocalSupport2CoefficientManager.hpp line 48: what CoefficientIter points to. *)
Definition nid := nat.

Section Manager.
Context {T C : Type} `{TimeOps T}.

(** A node of [std::map<Time, KeyCoefficient>]. LocalSupport2CoefficientManager.hpp lines 26-47. *)
Record node := Node { n_id : nid; n_time : T; n_key : N; n_coef : C }.

(** An iterator: a node or the past-the-end position. LocalSupport2CoefficientManager.hpp line 48. *)
Inductive iter := At (i : nid) | End.

(** LocalSupport2CoefficientManager.hpp lines 190-194. *)
Record mgr := Mgr {
  nodes : list node;            (* timeToCoefficient_ in order *)
  index : list (N * nid);       (* keyToCoefficient_ *)
  fresh : nid                   (* next unused node identity *)
}.

(** Constructor, lines 18-20: both containers empty. *)
Definition mgr_empty : mgr := Mgr [] [] 0.

(** ** std::map primitives *)

(** Dereferencing an iterator.
    Used for [it->], LocalSupport2CoefficientManager-inl.hpp lines 236, 244 and 250. *)
Definition node_by_id (l : list node) (i : nid) : option node :=
  find (fun n => Nat.eqb (n_id n) i) l.

(** [*it] and [it->]: UB for end() and for erased nodes.
    LocalSupport2CoefficientManager-inl.hpp lines 103, 119 and 155. *)
Definition deref (m : mgr) (it : iter) : outcome node :=
  match it with
  | End => UB
  | At i => match node_by_id (nodes m) i with Some n => Ok n | None => UB end
  end.

(** [std::map::find]. LocalSupport2CoefficientManager-inl.hpp lines 208 and 217. *)
Definition map_find (l : list node) (t : T) : option node :=
  find (fun n => tequiv (n_time n) t) l.

(** [std::map::insert]: result is the new node list, the identity of the node at
    that time and whether an insertion took place.  The hint of the hinted
    overload only affects speed. LocalSupport2CoefficientManager-inl.hpp lines 125, 171 and 185. *)
Fixpoint map_insert (new : node) (l : list node) : list node * nid * bool :=
  match l with
  | [] => ([new], n_id new, true)
  | n :: r =>
      if tlt (n_time new) (n_time n) then (new :: n :: r, n_id new, true)
      else if tlt (n_time n) (n_time new) then
        let '(r', i, b) := map_insert new r in (n :: r', i, b)
      else (n :: r, n_id n, false)
  end.

(** [std::map::erase(iterator)]. LocalSupport2CoefficientManager-inl.hpp lines 189 and 210. *)
Definition map_erase (i : nid) (l : list node) : list node :=
  filter (fun n => negb (Nat.eqb (n_id n) i)) l.

(** Writing the coefficient of a node in place.
    LocalSupport2CoefficientManager-inl.hpp lines 159 and 236. *)
Definition set_coef (i : nid) (c : C) (l : list node) : list node :=
  map (fun n => if Nat.eqb (n_id n) i then Node (n_id n) (n_time n) (n_key n) c else n) l.

(** Last node, i.e. dereferencing [--end()].
    LocalSupport2CoefficientManager-inl.hpp lines 269-270. *)
Definition last_node (l : list node) : option node :=
  match rev l with [] => None | n :: _ => Some n end.

(** ** unordered_map primitives *)

(** [keyToCoefficient_.find(k)]; [None] is end().
    LocalSupport2CoefficientManager-inl.hpp lines 209, 234, 242, 248 and 382. *)
Fixpoint idx_find (k : N) (l : list (N * nid)) : option nid :=
  match l with
  | [] => None
  | (k', i) :: r => if N.eqb k' k then Some i else idx_find k r
  end.

(** [map[k] = i]. LocalSupport2CoefficientManager-inl.hpp lines 126 and 187. *)
Fixpoint idx_set (k : N) (i : nid) (l : list (N * nid)) : list (N * nid) :=
  match l with
  | [] => [(k, i)]
  | (k', i') :: r => if N.eqb k' k then (k', i) :: r else (k', i') :: idx_set k i r
  end.

(** [map.insert(hint, (k,i))]: no effect if the key is present.
    LocalSupport2CoefficientManager-inl.hpp line 174. *)
Definition idx_insert (k : N) (i : nid) (l : list (N * nid)) : list (N * nid) :=
  match idx_find k l with Some _ => l | None => idx_set k i l end.

(** [keyToCoefficient_.erase(it)]. LocalSupport2CoefficientManager-inl.hpp line 211. *)
Fixpoint idx_erase (k : N) (l : list (N * nid)) : list (N * nid) :=
  match l with
  | [] => []
  | (k', i) :: r => if N.eqb k' k then r else (k', i) :: idx_erase k r
  end.

(** ** Queries *)

(** LocalSupport2CoefficientManager-inl.hpp lines 65-74 (and 58-63) *)
Definition get_keys (m : mgr) : list N := map n_key (nodes m).

(** LocalSupport2CoefficientManager-inl.hpp lines 76-86 *)
Definition get_times (m : mgr) : list T := map n_time (nodes m).

(** LocalSupport2CoefficientManager-inl.hpp lines 341-345 *)
Definition size (m : mgr) : nat := length (nodes m).

(** LocalSupport2CoefficientManager-inl.hpp lines 347-350 *)
Definition empty (m : mgr) : bool := match nodes m with [] => true | _ => false end.

(** LocalSupport2CoefficientManager-inl.hpp lines 359-365 *)
Definition min_time (m : mgr) : T :=
  match nodes m with [] => tzero | n :: _ => n_time n end.

(** LocalSupport2CoefficientManager-inl.hpp lines 367-373 *)
Definition max_time (m : mgr) : T :=
  match last_node (nodes m) with None => tzero | Some n => n_time n end.

(** LocalSupport2CoefficientManager-inl.hpp lines 214-219 *)
Definition has_coefficient_at_time (m : mgr) (t : T) : bool :=
  match map_find (nodes m) t with Some _ => true | None => false end.

(** LocalSupport2CoefficientManager-inl.hpp lines 400-413 with the default [tol = 0]
    (LocalSupport2CoefficientManager.hpp: [double tol = 0]): linear scan for the
    first node with time >= t, accepted if its time is also <= t.
    [t - 0] and [t + 0] are taken to be [t]; [Tolerance.v] has the search as
    written, and C118_default shows that for doubles this makes no difference. *)
Fixpoint scan_at_time (l : list node) (t : T) : option node :=
  match l with
  | [] => None
  | n :: r =>
      if tle t (n_time n) then
        if tle (n_time n) t then Some n else None
      else scan_at_time r t
  end.

(** LocalSupport2CoefficientManager-inl.hpp lines 239-245 *)
Definition get_coefficient_by_key (m : mgr) (k : N) : outcome C :=
  match idx_find k (index m) with
  | None => Abort
  | Some i => let* n := deref m (At i) in Ok (n_coef n)
  end.

(** LocalSupport2CoefficientManager-inl.hpp lines 246-251 *)
Definition get_coefficient_time_by_key (m : mgr) (k : N) : outcome T :=
  match idx_find k (index m) with
  | None => Abort
  | Some i => let* n := deref m (At i) in Ok (n_time n)
  end.

(** [upper_bound(t)] together with the node before it: [None] if the result is
    [begin()] or [end()], otherwise the pair (predecessor, result).
    LocalSupport2CoefficientManager-inl.hpp lines 272-283. *)
Fixpoint bracket_from (prev : node) (l : list node) (t : T) : option (node * node) :=
  match l with
  | [] => None
  | n :: r => if tlt t (n_time n) then Some (prev, n) else bracket_from n r t
  end.

(** LocalSupport2CoefficientManager-inl.hpp lines 272-283: the same from the first node on. *)
Definition bracket_upper (l : list node) (t : T) : option (node * node) :=
  match l with
  | [] => None
  | n :: r => if tlt t (n_time n) then None else bracket_from n r t
  end.

(** Last node and the one before it; [None] if [--end() == begin()].
    LocalSupport2CoefficientManager-inl.hpp lines 269-278. *)
Definition last_two (l : list node) : option (node * node) :=
  match rev l with n :: p :: _ => Some (p, n) | _ => None end.

(** LocalSupport2CoefficientManager-inl.hpp lines 254-286; [None] stands for [return false]. *)
Definition get_coefficients_at (m : mgr) (t : T) : option (node * node) :=
  if empty m then None
  else if teq t (max_time m) then last_two (nodes m)
  else bracket_upper (nodes m) t.

(** The loop of lines 98-103.  [cur] is the node [it] points to and [before] are
    the nodes before it, nearest first; [--it] on [begin()] is UB. *)
Fixpoint window_loop (beg : T) (cur : node) (before : list node) (acc : list T)
  : outcome (list T) :=
  let acc' := if tle beg (n_time cur) then acc ++ [n_time cur] else acc in
  match before with
  | [] => UB
  | p :: before' =>
      if tle beg (n_time p) && match before' with [] => false | _ => true end
      then window_loop beg p before' acc'
      else Ok acc'
  end.

(** LocalSupport2CoefficientManager-inl.hpp lines 88-106 *)
Definition get_times_in_window (m : mgr) (beg fin : T) : outcome (list T) :=
  if negb (teq fin (max_time m)) then Abort
  else if negb (tle (min_time m) beg) then Abort
  else
    match rev (nodes m) with
    | [] => UB                                   (* --end() of an empty map *)
    | last :: before =>
        let* out := window_loop beg last before [] in Ok (rev out)
    end.

(** ** Modifiers.  [g] is the state of the process wide key generator. *)

(** LocalSupport2CoefficientManager-inl.hpp lines 228-237 *)
Definition update_coefficient_by_key (m : mgr) (k : N) (c : C) : outcome mgr :=
  match idx_find k (index m) with
  | None => Abort
  | Some i =>
      let* _ := deref m (At i) in
      Ok (Mgr (set_coef i c (nodes m)) (index m) (fresh m))
  end.

(** LocalSupport2CoefficientManager-inl.hpp lines 113-129; returns the generator, the manager and the key. *)
Definition insert_coefficient (g : N) (m : mgr) (t : T) (c : C) : outcome (N * mgr * N) :=
  match scan_at_time (nodes m) t with
  | Some n =>
      let* m' := update_coefficient_by_key m (n_key n) c in
      Ok (g, m', n_key n)
  | None =>
      let k := next_key g in
      let '(l, i, _) := map_insert (Node (fresh m) t k c) (nodes m) in
      Ok (k, Mgr l (idx_set k i (index m)) (S (fresh m)), k)
  end.

(** LocalSupport2CoefficientManager-inl.hpp lines 137-143; [outKeys] is accumulated in order. *)
Fixpoint insert_loop (g : N) (m : mgr) (tcs : list (T * C)) (out : list N)
  : outcome (N * mgr * list N) :=
  match tcs with
  | [] => Ok (g, m, out)
  | (t, c) :: r =>
      let* (g', m', k) := insert_coefficient g m t c in
      insert_loop g' m' r (out ++ [k])
  end.

(** LocalSupport2CoefficientManager-inl.hpp lines 131-144 with the CHECK_EQ of line 136 *)
Definition insert_coefficients (g : N) (m : mgr) (ts : list T) (cs : list C) (out : list N)
  : outcome (N * mgr * list N) :=
  if Nat.eqb (length ts) (length cs) then insert_loop g m (combine ts cs) out
  else Abort.

(** LocalSupport2CoefficientManager-inl.hpp lines 157-161: [suffix] are the nodes from [it] on. *)
Fixpoint batch_write (suffix : list node) (ts : list T) (cs : list C) {struct ts} : outcome (list node) :=
  match ts, cs with
  | t :: ts', c :: cs' =>
      match suffix with
      | [] => UB                                  (* dereferencing end() *)
      | n :: r =>
          if teq (n_time n) t then
            let* r' := batch_write r ts' cs' in
            Ok (Node (n_id n) (n_time n) (n_key n) c :: r')
          else Abort
      end
  | _, _ => Ok suffix
  end.

(** LocalSupport2CoefficientManager-inl.hpp lines 153-155: walk back from the end to the first node (seen from the end)
    at time [t]; [before] nearest first, [after] the nodes already passed. *)
Fixpoint batch_seek (before after : list node) (t : T) : outcome (list node * list node) :=
  match before with
  | [] => UB                                      (* --begin() *)
  | n :: b => if teq (n_time n) t then Ok (b, n :: after) else batch_seek b (n :: after) t
  end.

(** LocalSupport2CoefficientManager-inl.hpp lines 146-162 *)
Definition modify_in_batch (m : mgr) (ts : list T) (cs : list C) : outcome mgr :=
  if negb (Nat.eqb (length ts) (length cs)) then Abort
  else match ts with
  | [] => UB                                      (* times[0] *)
  | t0 :: _ =>
      let* (b, suffix) := batch_seek (rev (nodes m)) [] t0 in
      let* suffix' := batch_write suffix ts cs in
      Ok (Mgr (rev b ++ suffix') (index m) (fresh m))
  end.

(** LocalSupport2CoefficientManager-inl.hpp lines 164-178 *)
Definition add_coefficient_at_end (g : N) (m : mgr) (t : T) (c : C) (out : list N)
  : outcome (N * mgr * list N) :=
  if negb (tlt (max_time m) t) then Abort
  else
    let k := next_key g in
    match nodes m with
    | [] => UB                                    (* --end() of an empty map, line 171 *)
    | _ =>
        let '(l, i, _) := map_insert (Node (fresh m) t k c) (nodes m) in
        Ok (k, Mgr l (idx_insert k i (index m)) (S (fresh m)), out ++ [k])
    end.

(** LocalSupport2CoefficientManager-inl.hpp lines 180-190 *)
Definition modify_coefficient (m : mgr) (it : iter) (t : T) (c : C) : outcome mgr :=
  let* n := deref m it in
  let '(l, i, _) := map_insert (Node (fresh m) t (n_key n) c) (nodes m) in
  Ok (Mgr (map_erase (n_id n) l) (idx_set (n_key n) i (index m)) (S (fresh m))).

(** LocalSupport2CoefficientManager-inl.hpp lines 203-212; line 211 erases an iterator, which is UB if the key is not found. *)
Definition remove_coefficient_at_time (m : mgr) (t : T) : outcome mgr :=
  if has_coefficient_at_time m t then
    match map_find (nodes m) t with
    | None => UB
    | Some n =>
        match idx_find (n_key n) (index m) with
        | None => UB
        | Some _ => Ok (Mgr (map_erase (n_id n) (nodes m)) (idx_erase (n_key n) (index m)) (fresh m))
        end
    end
  else Abort.

(** LocalSupport2CoefficientManager-inl.hpp lines 328-339; the argument map in the order its iteration visits it *)
Definition update_coefficients (m : mgr) (kcs : list (N * C)) : outcome mgr :=
  foldM (fun m kc => update_coefficient_by_key m (fst kc) (snd kc)) kcs m.

(** LocalSupport2CoefficientManager-inl.hpp lines 352-357 *)
Definition clear (m : mgr) : mgr := Mgr [] [] (fresh m).

(** LocalSupport2CoefficientManager-inl.hpp lines 375-398 with [doExit = false].  [ceq] is operator== of coefficients.
    [itc] is dereferenced in line 383 before it is compared with end() in line 384. *)
Definition check_node (ceq : C -> C -> bool) (m : mgr) (n : node) : outcome unit :=
  match idx_find (n_key n) (index m) with
  | None => UB
  | Some i =>
      let* n' := deref m (At i) in
      if N.eqb (n_key n) (n_key n') then
        if ceq (n_coef n') (n_coef n) then Ok tt else Abort
      else Abort
  end.

(** LocalSupport2CoefficientManager-inl.hpp lines 375-398: the size check of line 377 and the loop. *)
Definition check_internal_consistency (ceq : C -> C -> bool) (m : mgr) : outcome unit :=
  if Nat.eqb (length (index m)) (length (nodes m))
  then foldM (fun _ n => check_node ceq m n) (nodes m) tt
  else Abort.

(** Iterator to the [i]-th coefficient ([coefficientBegin()] advanced [i] times);
    LocalSupport2CoefficientManager.hpp [coefficientBegin], [coefficientEnd]. *)
Definition iter_at (m : mgr) (i : nat) : iter :=
  match nth_error (nodes m) i with Some n => At (n_id n) | None => End end.

(** ** Calls as data, for statements about histories *)

(** The public members that change the manager, LocalSupport2CoefficientManager.hpp lines 75-165. *)
Inductive call :=
| CInsert (t : T) (c : C)
| CInsertMany (ts : list T) (cs : list C)
| CAddEnd (t : T) (c : C)
| CRemove (t : T)
| CUpdate (k : N) (c : C)
| CUpdateMany (kcs : list (N * C))
| CBatch (ts : list T) (cs : list C)
| CMove (i : nat) (t : T) (c : C)       (* modifyCoefficient on the i-th coefficient *)
| CClear.

(** Not in the source: runs one call; returned keys are dropped. *)
Definition exec_call (g : N) (m : mgr) (o : call) : outcome (N * mgr) :=
  match o with
  | CInsert t c => let* (g', m', _) := insert_coefficient g m t c in Ok (g', m')
  | CInsertMany ts cs => let* (g', m', _) := insert_coefficients g m ts cs [] in Ok (g', m')
  | CAddEnd t c => let* (g', m', _) := add_coefficient_at_end g m t c [] in Ok (g', m')
  | CRemove t => let* m' := remove_coefficient_at_time m t in Ok (g, m')
  | CUpdate k c => let* m' := update_coefficient_by_key m k c in Ok (g, m')
  | CUpdateMany kcs => let* m' := update_coefficients m kcs in Ok (g, m')
  | CBatch ts cs => let* m' := modify_in_batch m ts cs in Ok (g, m')
  | CMove i t c => let* m' := modify_coefficient m (iter_at m i) t c in Ok (g, m')
  | CClear => Ok (g, clear m)
  end.

(** Several managers sharing the key generator. Not in the source: the objects of a program. *)
Record world := World { w_gen : N; w_mgrs : list mgr }.

(** Not in the source: replaces an element of a list. *)
Fixpoint set_nth {A} (i : nat) (a : A) (l : list A) : list A :=
  match l, i with
  | [], _ => []
  | _ :: r, O => a :: r
  | b :: r, S i' => b :: set_nth i' a r
  end.

(** A call on the [i]-th manager; calls on managers that do not exist are skipped.
    Not in the source: the semantics of a program with several objects. *)
Definition exec_world (w : world) (io : nat * call) : outcome world :=
  match nth_error (w_mgrs w) (fst io) with
  | None => Ok w
  | Some m =>
      let* (g', m') := exec_call (w_gen w) m (snd io) in
      Ok (World g' (set_nth (fst io) m' (w_mgrs w)))
  end.

(** Not in the source: a sequence of calls, up to the first that does not return. *)
Definition exec_history (w : world) (h : list (nat * call)) : outcome world :=
  foldM exec_world h w.

(** [n] newly constructed managers in a process that has not used the generator.
    LocalSupport2CoefficientManager-inl.hpp lines 18-20. *)
Definition world_init (n : nat) : world := World 0 (repeat mgr_empty n).

End Manager.

Arguments node : clear implicits.
Arguments mgr : clear implicits.
Arguments world : clear implicits.
Arguments call : clear implicits.
