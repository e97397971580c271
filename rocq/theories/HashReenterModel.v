(** Model of ke::HashTable (amtl/am-hashtable.h) holding payloads whose destructors use the table themselves.

    HashTableModel.v covers payloads that run no code of their own when destroyed.  Here the destructor of a payload is a list of
    calls on the table that holds it.  Simplifications: the destructor makes its calls before any member of the payload is
    destroyed, so that HashPolicy::matches may still look at it; destructors of moved-from payloads (changeCapacity,
    am-hashtable.h:272-275) make no calls.  [fuel] bounds the nesting of destructors, which may be without end. *)
From Verif Require Import Base HashTableModel.
Local Open Scope N_scope.

(** Calls made by client code, destructors included: am-hashtable.h:430-468, 478-484, 493-495. *)
Inductive hop (Key Payload : Type) :=
| HFind (k : Key)                              (* r = find(k); found and *r *)
| HAdd (k : Key) (p : Payload) (alloc : bool)  (* i = findForAdd(k); if (i.found()) read *i, else if add(i, p) read *i *)
| HRemove (k : Key)                            (* removeIfExists(k) *)
| HClear                                       (* clear() *)
| HElements.                                   (* elements() *)
Arguments HFind {Key Payload} k. Arguments HAdd {Key Payload} k p alloc. Arguments HRemove {Key Payload} k.
Arguments HClear {Key Payload}. Arguments HElements {Key Payload}.

(** What client code can notice: the results of the calls of am-hashtable.h:430-495, and the start of the destructor of a payload
    (am-hashtable.h:80-83). *)
Inductive event (Payload : Type) :=
| VFound (p : Payload) | VAbsent | VAdded (p : Payload) | VFailed | VCount (n : N) | VDestroyed (p : Payload).
Arguments VFound {Payload} p. Arguments VAbsent {Payload}. Arguments VAdded {Payload} p. Arguments VFailed {Payload}.
Arguments VCount {Payload} n. Arguments VDestroyed {Payload} p.

Section HashReenter.
Variable Key Payload : Type.
Variable hashf : Key -> N.
Variable matches : Key -> Payload -> bool.
Variable dflt : Payload.
Variable c : cfg.
(** ~T of the payload: t_.~T() of am-hashtable.h:82. *)
Variable dtor : Payload -> list (hop Key Payload).
Notation table := (table Payload).
Notation result := (outcome (table * list (event Payload))).

(** The table with other contents of a slot: am-hashtable.h:56-58, 80-83. *)
Definition set_slot (t : table) (l : list (entry Payload)) (s : nat) (e : entry Payload) : table :=
  Table (cap t) (nelem t) (ndel t) (Some (upd l s e)) (mincap t).

(** The result of a call as an event: am-hashtable.h:182-191, 454-468, 493-495. *)
Definition note (r : out Payload) : list (event Payload) :=
  match r with
  | RFound p => [VFound p] | RAbsent => [VAbsent] | RAdded p => [VAdded p] | RFailed => [VFailed] | RNum n => [VCount n]
  | _ => []
  end.

Section Step.
(** How a list of calls runs while the destructors of the payloads in the given slots are running. *)
Variable exec : list nat -> table -> list (hop Key Payload) -> result.

(** Entry::destruct(), am-hashtable.h:80-83: the hash stays as it is, before and after. *)
Definition destruct_at (dying : list nat) (t : table) (s : nat) : result :=
  do l <- deref (tbl t);
  do e <- slot_get l s;
  if isLive e then
    if existsb (Nat.eqb s) dying then Fault DoubleFree
    else
      match e_pay e with
      | Raw => Fault DoubleFree
      | Moved => Ok (set_slot t l s (Entry (e_hash e) Raw), [])
      | Val p =>
          do (t1, ev) <- exec (s :: dying) t (dtor p);
          do l1 <- deref (tbl t1);
          do e1 <- slot_get l1 s;
          Ok (set_slot t1 l1 s (Entry (e_hash e1) Raw), VDestroyed p :: ev)
      end
  else Ok (t, []).
(** Entry::setRemoved() and Entry::setFree(), am-hashtable.h:69-76. *)
Definition set_dead (h : N) (dying : list nat) (t : table) (s : nat) : result :=
  do (t1, ev) <- destruct_at dying t s;
  do l1 <- deref (tbl t1);
  do e1 <- slot_get l1 s;
  Ok (set_slot t1 l1 s (setHash e1 h), ev).
(** am-hashtable.h:371-376: the counters change after the destructor has run. *)
Definition remove_entry (dying : list nat) (t : table) (s : nat) : result :=
  do b <- found t s;
  do _ <- assert_ (debug c) b;
  do (t1, ev) <- set_dead kRemovedHash dying t s;
  Ok (Table (cap t1) (usub 32 (nelem t1) 1) (uadd 32 (ndel t1) 1) (tbl t1) (mincap t1), ev).
(** removeIfExists(), remove(): am-hashtable.h:441-452. *)
Definition remove_key (dying : list nat) (t : table) (k : Key) : result :=
  do s <- find hashf matches c t k;
  do b <- found t s;
  if b then do b' <- found t s; do _ <- assert_ (debug c) b'; remove_entry dying t s
  else Ok (t, []).
(** The loops of am-hashtable.h:404-405, 479-481 over the slots. *)
Fixpoint each (f : table -> nat -> result) (slots : list nat) (t : table) : result :=
  match slots with
  | [] => Ok (t, [])
  | s :: r => do (t1, ev1) <- f t s; do (t2, ev2) <- each f r t1; Ok (t2, ev1 ++ ev2)
  end.
(** clear(), am-hashtable.h:478-484.  The capacity does not change while the loop runs: see [call]. *)
Definition clear_all (dying : list nat) (t : table) : result :=
  do (t1, ev) <- each (set_dead kFreeHash dying) (seq 0 (N.to_nat (cap t))) t;
  Ok (Table (cap t1) 0 0 (tbl t1) (mincap t1), ev).
(** One call.  changeCapacity() moves and destroys every live payload of the old block, also one whose destructor is running
    (am-hashtable.h:269-277). *)
Definition call (dying : list nat) (t : table) (o : hop Key Payload) : result :=
  match o with
  | HFind k => do (t1, r) <- step hashf matches dflt c t (OFind k); Ok (t1, note r)
  | HElements => do (t1, r) <- step hashf matches dflt c t OElements; Ok (t1, note r)
  | HAdd k p alloc =>
      do (t1, r) <- step hashf matches dflt c t (OAdd k p alloc);
      if negb (cap t1 =? cap t) && negb (match dying with [] => true | _ => false end) then Fault DoubleFree
      else Ok (t1, note r)
  | HRemove k => remove_key dying t k
  | HClear => clear_all dying t
  end.
(** Calls one after the other (am-hashtable.h:430-495). *)
Fixpoint calls (dying : list nat) (t : table) (os : list (hop Key Payload)) : result :=
  match os with
  | [] => Ok (t, [])
  | o :: r => do (t1, ev1) <- call dying t o; do (t2, ev2) <- calls dying t1 r; Ok (t2, ev1 ++ ev2)
  end.
End Step.

(** Calls with destructors nested up to [fuel] deep (t_.~T() of am-hashtable.h:82). *)
Fixpoint exec (fuel : nat) (dying : list nat) (t : table) (os : list (hop Key Payload)) : result :=
  match fuel with
  | O => match os with [] => Ok (t, []) | _ => Diverge end
  | S f => calls (exec f) dying t os
  end.

(** ~HashTable(), am-hashtable.h:403-407: no slot is marked free. *)
Definition destroy_all (fuel : nat) (t : table) : outcome (list (event Payload)) :=
  do (t1, ev) <- each (destruct_at (exec fuel) []) (seq 0 (N.to_nat (cap t))) t;
  do _ <- (match tbl t1 with None => Ok tt | Some l => am_free l end);
  Ok ev.

(** A table from init() to its destruction (am-hashtable.h:379-386, 403-427). *)
Definition life_re (fuel : nat) (capacity : N) (os : list (hop Key Payload)) : outcome (list (event Payload)) :=
  do (t, ok) <- init c true ctor capacity;
  if ok then
    do (t1, ev1) <- exec (S fuel) [] t os;
    do ev2 <- destroy_all fuel t1;
    Ok (ev1 ++ ev2)
  else Ok [].
End HashReenter.

Arguments set_slot {Payload} t l s e. Arguments note {Payload} r.
Arguments destruct_at {Key Payload} dtor exec dying t s.
Arguments set_dead {Key Payload} dtor exec h dying t s.
Arguments remove_entry {Key Payload} c dtor exec dying t s.
Arguments remove_key {Key Payload} hashf matches c dtor exec dying t k.
Arguments each {Payload} f slots t.
Arguments clear_all {Key Payload} dtor exec dying t.
Arguments call {Key Payload} hashf matches dflt c dtor exec dying t o.
Arguments calls {Key Payload} hashf matches dflt c dtor exec dying t os.
Arguments exec {Key Payload} hashf matches dflt c dtor fuel dying t os.
Arguments destroy_all {Key Payload} hashf matches dflt c dtor fuel t.
Arguments life_re {Key Payload} hashf matches dflt c dtor fuel capacity os.
