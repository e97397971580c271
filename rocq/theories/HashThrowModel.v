(** Model of amtl/am-hashtable.h when the payload's constructors may throw, on top of HashTableModel.v.

    HashTableModel.v gives the table's functions when nothing throws; here are the states they leave when an exception
    comes out of the payload's constructor at each of the places where the table or HashMap constructs one.  The
    client catches every exception.  Simplification: destructors do not throw (hashes and comparisons: HashOracleModel.v). *)
From Verif Require Import Base BitsModel HashTableModel.
Local Open Scope N_scope.

Section HashThrow.
Variable Key Payload : Type.
Variable hashf : Key -> N.
Variable matches : Key -> Payload -> bool.
Variable dflt : Payload.
Variable c : cfg.

(** am-hashtable.h:456-468 add(i, payload) when the payload's constructor throws at :459 or :465: internalAdd has
    run; true when the constructor was reached. *)
Definition add_throws (alloc : bool) (t : table Payload) (i : insert) : outcome (table Payload * bool) :=
  do (t1, _, ok) <- internalAdd c alloc t i; Ok (t1, ok).

(** am-hashtable.h:269-277 when the move construction at :274 of the n-th live entry throws: :273 has already set the
    new entry's hash.  Result: the new table's entries, the old one's, whether the throw was reached. *)
Fixpoint rehash_throws (n : nat) (old l : list (entry Payload)) (cp : N)
    : outcome (list (entry Payload) * list (entry Payload) * bool) :=
  match old with
  | [] => Ok (l, [], false)
  | e :: rest =>
      if isLive e then
        do s <- insertUnique c l cp (e_hash e);
        do e1 <- slot_get l s;
        match n with
        | O => do l' <- slot_set l s (setHash e1 (e_hash e)); Ok (l', e :: rest, true)
        | S n =>
            do (p, e') <- move_out c e;
            do e2 <- construct (setHash e1 (e_hash e)) p;
            do l' <- slot_set l s e2;
            do e'' <- destruct_ e';
            do (ro, th) <- rehash_throws n rest l' cp;
            let (r, o) := ro : list (entry Payload) * list (entry Payload) in
            Ok (r, e'' :: o, th)
        end
      else
        do e'' <- destruct_ e;
        do (ro, th) <- rehash_throws n rest l cp;
        let (r, o) := ro : list (entry Payload) * list (entry Payload) in
        Ok (r, e'' :: o, th)
  end.

(** am-hashtable.h:255-281 changeCapacity with the same exception: table_, capacity_ and ndeleted_ are already those of
    the new table, and am_free(oldTable) (:278) is skipped.  Result: the table, the entries of the old storage if it
    was never freed, whether the throw was reached. *)
Definition changeCapacity_throws (n : nat) (t : table Payload) (newCapacity : N)
    : outcome (table Payload * list (entry Payload) * bool) :=
  do _ <- assert_ (debug c) (newCapacity <=? kMaxCapacity c);
  do nt <- createTable c true newCapacity;
  do l <- deref nt;
  do old <- deref (tbl t);
  do (lo, th) <- rehash_throws n old l newCapacity;
  let (l', old') := lo : list (entry Payload) * list (entry Payload) in
  let t' := Table newCapacity (nelem t) 0 (Some l') (mincap t) in
  if th then Ok (t', old', true) else do _ <- am_free old'; Ok (t', [], false).

(** am-hashtable.h:470-476 checkDensity, with shrink (:241-245) and grow (:247-253), with the same exception.  add()
    reaches it at :357 before changing anything itself, so an add that grows the table leaves the same state. *)
Definition checkDensity_throws (n : nat) (t : table Payload) : outcome (table Payload * list (entry Payload) * bool) :=
  if underloaded t then
    if N.shiftr (cap t) 1 <? mincap t then Ok (t, [], false)
    else changeCapacity_throws n t (N.shiftr (cap t) 1)
  else if overloaded t then
    if kMaxCapacity c <=? cap t then do _ <- reportAllocationOverflow c; Ok (t, [], false)
    else changeCapacity_throws n t (ushl 32 (cap t) 1)
  else Ok (t, [], false).

(** Statements of a client of HashMap: an ordinary call, or the usual insertion in which building the local Entry from
    the key and the value throws (am-hashmap.h:131-140: Entry entry(...) comes before table_.add). *)
Inductive xop := Plain (o : op Key Payload) | EntryThrows (k : Key).
Inductive xout := Out (r : out Payload) | Threw.

(** One statement: [i = findForAdd(k); if (!i.found()) add(i, k, v)] (am-hashmap.h:115-140), in try/catch. *)
Definition xstep (t : table Payload) (o : xop) : outcome (table Payload * xout) :=
  match o with
  | Plain o => do (t, r) <- step hashf matches dflt c t o; Ok (t, Out r)
  | EntryThrows k =>
      do i <- findForAdd hashf matches c t k;
      do b <- found t (fst i);
      if b then do q <- read c t (fst i); Ok (t, Out (RFound q)) else Ok (t, Threw)
  end.
(** A sequence of statements (am-hashmap.h:110-159). *)
Fixpoint xrun (t : table Payload) (ops : list xop) : outcome (table Payload * list xout) :=
  match ops with
  | [] => Ok (t, [])
  | o :: rest => do (t', r) <- xstep t o; do (t'', rs) <- xrun t' rest; Ok (t'', r :: rs)
  end.
(** The whole life of a table (am-hashtable.h:379-427, 403-407) under such statements. *)
Definition xlife (capacity : N) (ops : list xop) : outcome (table Payload * list xout) :=
  do (t, ok) <- init c true ctor capacity;
  if ok then
    do (t', outs) <- xrun t ops;
    do _ <- destroy t';
    Ok (t', outs)
  else Ok (t, []).
End HashThrow.
Arguments Plain {Key Payload}. Arguments EntryThrows {Key Payload}. Arguments Out {Payload}. Arguments Threw {Payload}.
Arguments add_throws {Payload}. Arguments rehash_throws {Payload}. Arguments changeCapacity_throws {Payload}.
Arguments checkDensity_throws {Payload}. Arguments xstep {Key Payload}. Arguments xrun {Key Payload}.
Arguments xlife {Key Payload}.
