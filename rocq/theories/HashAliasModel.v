(** Adding to a ke::HashTable, HashSet or HashMap what a reference into the same table points to: am-hashtable.h:454-468,
    am-hashset.h:104-107, 141-146, am-hashmap.h:131-140.

    [add(i, u)] takes its argument by reference ([U&&]) and reads it when the payload is constructed.  Here the argument is a
    reference into the payload found under another key: [conv] is what the payload's constructor makes of the part referred to
    (the identity for a copy).  A reference is a block and a slot in it, followed only when the payload is constructed. *)
From Verif Require Import Base HashTableModel HashTableMemModel.
Local Open Scope N_scope.

Section Alias.
Variable Key Payload : Type.
Variable hashf : Key -> N.
Variable matches : Key -> Payload -> bool.
Variable c : cfg.
(** A [Payload&] obtained from a Result (am-hashtable.h:182-187): the block that table_ was, and the slot. *)
Definition ref := (option nat * nat)%type.
(** Following it: the block must still be the table's (am-hashtable.h:278 gives the old one back). *)
Definition follow (h : heap) (m : mtable Payload) (r : ref) : outcome Payload :=
  match fst r with
  | None => Fault NullDeref
  | Some b =>
      if existsb (fun x => Nat.eqb (fst x) b) (live h) && match ptr m with Some b' => Nat.eqb b' b | None => false end then
        do l <- deref (tbl (obj m));
        do e <- slot_get l (snd r);
        match e_pay e with Val p => Ok p | Raw => Fault Uninit | Moved => Fault MovedFrom end
      else Fault UseAfterFree
  end.

(** am-hashtable.h:454-461 with a payload given by reference: internalAdd first, then the constructor reads [r]. *)
Definition m_add_ref (alloc : bool) (h : heap) (m : mtable Payload) (i : insert) (r : ref) (conv : Payload -> Payload)
    : outcome (mtable Payload * heap * insert * bool) :=
  do (m1, h1, i1, ok) <- m_internalAdd c alloc h m i;
  if ok then
    do l <- deref (tbl (obj m1));
    do e <- slot_get l (fst i1);
    do p <- follow h1 m1 r;
    do e' <- construct e (conv p);
    do l' <- slot_set l (fst i1) e';
    Ok (MTable (Table (cap (obj m1)) (nelem (obj m1)) (ndel (obj m1)) (Some l') (mincap (obj m1))) (ptr m1),
        h1, i1, true)
  else Ok (m1, h1, i1, false).
(** am-hashmap.h:131-140: the Entry is built on the stack before the table is touched. *)
Definition m_map_add_ref (alloc : bool) (h : heap) (m : mtable Payload) (i : insert) (r : ref) (conv : Payload -> Payload)
    : outcome (mtable Payload * heap * insert * bool) :=
  do p <- follow h m r;
  m_add c alloc h m i (conv p).

(** The client: [r = find(k'); if (r.found()) { i = findForAdd(k); if (i.found()) read *i; else if (add(i, part of *r)) read *i }],
    where add is am-hashtable.h:456 (also behind am-hashset.h:104 and 141) or am-hashmap.h:131. *)
Definition add_alias (in_map : bool) (h : heap) (m : mtable Payload) (k k' : Key) (conv : Payload -> Payload) (alloc : bool)
    : outcome (mtable Payload * heap * out Payload) :=
  do s' <- find hashf matches c (obj m) k';
  do b' <- found (obj m) s';
  if b' then
    do i <- findForAdd hashf matches c (obj m) k;
    do b <- found (obj m) (fst i);
    if b then do q <- read c (obj m) (fst i); Ok (m, h, RFound q)
    else
      do (m', h', i', ok) <- (if in_map then m_map_add_ref else m_add_ref) alloc h m i (ptr m, s') conv;
      if ok then do q <- read c (obj m') (fst i'); Ok (m', h', RAdded q) else Ok (m', h', RFailed)
  else Ok (m, h, RAbsent).
End Alias.
Arguments follow {Payload} h m r. Arguments m_add_ref {Payload} c alloc h m i r conv.
Arguments m_map_add_ref {Payload} c alloc h m i r conv.
Arguments add_alias {Key Payload} hashf matches c in_map h m k k' conv alloc.
