(** The memory blocks of ke::HashTable: am-hashtable.h once more, this time with the heap.

    HashTableModel follows the payload objects inside the entries; there a table is a value, so forgetting to
    free an old table, or keeping a pointer to it in two objects, leaves no trace.  Here [table_] is a pointer:
    [ptr] names a heap block, [obj] holds the other fields and what the block contains.  The heap records each
    block handed out by am_malloc with its size, and each block returned through am_free.  Only the functions
    that touch [table_] as a pointer are transcribed again; the others are those of HashTableModel. *)
From Verif Require Import Base BitsModel HashTableModel.
Local Open Scope N_scope.

Record heap := Heap {
  live : list (nat * N);     (* blocks in use: address, bytes *)
  freed : list nat;          (* blocks given back so far *)
  next : nat                 (* addresses from here on have never been handed out *)
}.

(** AllocPolicy::am_malloc (am-allocator-policies.h:57-68) when it succeeds. *)
Definition h_malloc (h : heap) (bytes : N) : nat * heap :=
  (next h, Heap ((next h, bytes) :: live h) (freed h) (S (next h))).
(** AllocPolicy::am_free (am-allocator-policies.h:50-56); free(nullptr) does nothing. *)
Definition h_free (h : heap) (p : option nat) : outcome heap :=
  match p with
  | None => Ok h
  | Some b =>
      if existsb (fun x => Nat.eqb (fst x) b) (live h)
      then Ok (Heap (filter (fun x => negb (Nat.eqb (fst x) b)) (live h)) (b :: freed h) (next h))
      else Fault DoubleFree
  end.

Section Mem.
Variable Key Payload : Type.
Variable hashf : Key -> N.
Variable matches : Key -> Payload -> bool.
Variable dflt : Payload.
Variable c : cfg.
Notation table := (table Payload).

(** am-hashtable.h:548-552: the object; [ptr] is table_, [obj] the counters and the contents of the block. *)
Record mtable := MTable { obj : table; ptr : option nat }.

(** am-hashtable.h:153-164. *)
Definition m_createTable (alloc : bool) (h : heap) (capacity : N)
    : outcome (option (nat * list (entry Payload)) * heap) :=
  do r <- createTable c alloc capacity;
  match r with
  | None => Ok (None, h)
  | Some l => let '(b, h') := h_malloc h (capacity * sizeof_entry c) in Ok (Some (b, l), h')
  end.

(** am-hashtable.h:255-281. *)
Definition m_changeCapacity (alloc : bool) (h : heap) (m : mtable) (newCapacity : N)
    : outcome (mtable * heap * bool) :=
  do _ <- assert_ (debug c) (newCapacity <=? kMaxCapacity c);
  do (nt, h1) <- m_createTable alloc h newCapacity;
  match nt with
  | None => Ok (m, h1, false)
  | Some (b, l) =>
      let oldTable := ptr m in
      do old <- deref (tbl (obj m));
      do (l', old') <- rehash c old l newCapacity;
      do _ <- am_free old';
      do h2 <- h_free h1 oldTable;
      Ok (MTable (Table newCapacity (nelem (obj m)) 0 (Some l') (mincap (obj m))) (Some b), h2, true)
  end.

(** am-hashtable.h:241-245. *)
Definition m_shrink (alloc : bool) (h : heap) (m : mtable) : outcome (mtable * heap * bool) :=
  if N.shiftr (cap (obj m)) 1 <? mincap (obj m) then Ok (m, h, true)
  else m_changeCapacity alloc h m (N.shiftr (cap (obj m)) 1).

(** am-hashtable.h:247-253. *)
Definition m_grow (alloc : bool) (h : heap) (m : mtable) : outcome (mtable * heap * bool) :=
  if kMaxCapacity c <=? cap (obj m) then
    do _ <- reportAllocationOverflow c; Ok (m, h, false)
  else m_changeCapacity alloc h m (ushl 32 (cap (obj m)) 1).

(** am-hashtable.h:470-476. *)
Definition m_checkDensity (alloc : bool) (h : heap) (m : mtable) : outcome (mtable * heap * bool) :=
  if underloaded (obj m) then m_shrink alloc h m
  else if overloaded (obj m) then m_grow alloc h m
  else Ok (m, h, true).

(** am-hashtable.h:339-369. *)
Definition m_internalAdd (alloc : bool) (h : heap) (m : mtable) (i : insert)
    : outcome (mtable * heap * insert * bool) :=
  do b <- found (obj m) (fst i);
  do _ <- assert_ (debug c) (negb b);
  do l <- deref (tbl (obj m));
  do e <- slot_get l (fst i);
  do (m1, h1, i1, ok) <-
    (if removed e then
       Ok (MTable (Table (cap (obj m)) (nelem (obj m)) (usub 32 (ndel (obj m)) 1) (tbl (obj m)) (mincap (obj m)))
                  (ptr m), h, i, true)
     else if nelem (obj m) =? kMaxCapacity c then
       do _ <- reportAllocationOverflow c; Ok (m, h, i, false)
     else
       do (m', h', ok) <- m_checkDensity alloc h m;
       if negb ok then Ok (m', h', i, false)
       else if negb (cap (obj m') =? cap (obj m)) then
         do l' <- deref (tbl (obj m'));
         do s <- insertUnique c l' (cap (obj m')) (snd i);
         Ok (m', h', (s, snd i), true)
       else Ok (m', h', i, true));
  if ok then
    do l1 <- deref (tbl (obj m1));
    do e1 <- slot_get l1 (fst i1);
    do l2 <- slot_set l1 (fst i1) (setHash e1 (snd i1));
    Ok (MTable (Table (cap (obj m1)) (uadd 32 (nelem (obj m1)) 1) (ndel (obj m1)) (Some l2) (mincap (obj m1)))
               (ptr m1), h1, i1, true)
  else Ok (m1, h1, i1, false).

(** am-hashtable.h:454-468. *)
Definition m_add (alloc : bool) (h : heap) (m : mtable) (i : insert) (p : Payload)
    : outcome (mtable * heap * insert * bool) :=
  do (m1, h1, i1, ok) <- m_internalAdd alloc h m i;
  if ok then
    do l <- deref (tbl (obj m1));
    do e <- slot_get l (fst i1);
    do e' <- construct e p;
    do l' <- slot_set l (fst i1) e';
    Ok (MTable (Table (cap (obj m1)) (nelem (obj m1)) (ndel (obj m1)) (Some l') (mincap (obj m1))) (ptr m1),
        h1, i1, true)
  else Ok (m1, h1, i1, false).

(** am-hashtable.h:379-386. *)
Definition m_ctor : mtable := MTable ctor None.

(** am-hashtable.h:409-427.  Nothing stops a second init(): it overwrites table_. *)
Definition m_init (alloc : bool) (h : heap) (m : mtable) (capacity : N) : outcome (mtable * heap * bool) :=
  let go cp :=
    do _ <- assert_ (debug c) (IsPowerOfTwo 64 cp);
    do (r, h') <- m_createTable alloc h (uw 32 cp);
    match r with
    | None => Ok (MTable (Table (uw 32 cp) (nelem (obj m)) (ndel (obj m)) None (uw 32 cp)) None, h', false)
    | Some (b, l) =>
        Ok (MTable (Table (uw 32 cp) (nelem (obj m)) (ndel (obj m)) (Some l) (uw 32 cp)) (Some b), h', true)
    end in
  if capacity <? kMinCapacity then go kMinCapacity
  else if kMaxCapacity c <? capacity then do _ <- reportAllocationOverflow c; Ok (m, h, false)
  else go capacity.

(** am-hashtable.h:403-407: destroy the payloads, am_free(table_). *)
Definition m_destroy (h : heap) (m : mtable) : outcome heap :=
  do _ <- destroy (obj m);
  h_free h (ptr m).

(** am-hashtable.h:388-401. *)
Definition m_move_ctor (other : mtable) : mtable * mtable :=
  let '(n, o) := move_ctor (obj other) in
  (MTable n (ptr other), MTable o None).

(** Functions that leave table_ alone. *)
(** am-hashtable.h:297-313, 371-376, 478-484, 503-541: functions that leave table_ alone. *)
Definition in_place {A} (m : mtable) (h : heap) (r : outcome (table * A)) : outcome (mtable * heap * A) :=
  do (t', a) <- r; Ok (MTable t' (ptr m), h, a).

(** One client operation on the functions of am-hashtable.h:379-499; as [step] of HashTableModel. *)
Definition m_step (h : heap) (m : mtable) (o : op Key Payload) : outcome (mtable * heap * out Payload) :=
  match o with
  | OAdd k p alloc =>
      do i <- findForAdd hashf matches c (obj m) k;
      do b <- found (obj m) (fst i);
      if b then do q <- read c (obj m) (fst i); Ok (m, h, RFound q)
      else
        do (m', h', i', ok) <- m_add alloc h m i p;
        if ok then do q <- read c (obj m') (fst i'); Ok (m', h', RAdded q) else Ok (m', h', RFailed)
  | OAddInPlace k p alloc =>
      do i <- findForAdd hashf matches c (obj m) k;
      do b <- found (obj m) (fst i);
      if b then do q <- read c (obj m) (fst i); Ok (m, h, RFound q)
      else
        do (m', h', i', ok) <- m_add alloc h m i dflt;
        if ok then
          do t'' <- write c (obj m') (fst i') p;
          do q <- read c t'' (fst i'); Ok (MTable t'' (ptr m'), h', RAdded q)
        else Ok (m', h', RFailed)
  | OSet k p alloc =>
      do i <- findForAdd hashf matches c (obj m) k;
      do b <- found (obj m) (fst i);
      if b then
        do q <- read c (obj m) (fst i);
        do t' <- write c (obj m) (fst i) p; Ok (MTable t' (ptr m), h, RFound q)
      else
        do (m', h', i', ok) <- m_add alloc h m i p;
        if ok then do q <- read c (obj m') (fst i'); Ok (m', h', RAdded q) else Ok (m', h', RFailed)
  | OCheckDensity alloc =>
      do (m', h', ok) <- m_checkDensity alloc h m; Ok (m', h', if ok then RUnit else RFailed)
  | OMove =>
      let '(m', old) := m_move_ctor m in
      do h' <- m_destroy h old; Ok (m', h', RUnit)
  | OUpdate _ _ | OFind _ | OFindForAdd _ | ORemove _ | OClear | OEraseIf _ | OIterate | OElements =>
      in_place m h (step hashf matches dflt c (obj m) o)
  end.

(** Client programs over am-hashtable.h:379-499; as [run] of HashTableModel. *)
Fixpoint m_run (h : heap) (m : mtable) (ops : list (op Key Payload)) : outcome (mtable * heap * list (out Payload)) :=
  match ops with
  | [] => Ok (m, h, [])
  | o :: rest =>
      do (m', h', r) <- m_step h m o;
      do (m'', h'', rs) <- m_run h' m' rest;
      Ok (m'', h'', r :: rs)
  end.

(** Construct, init, use. *)
(** Client programs over am-hashtable.h:379-499. *)
Definition m_use (h : heap) (capacity : N) (ops : list (op Key Payload))
    : outcome (mtable * heap * list (out Payload)) :=
  do (m, h1, ok) <- m_init true h m_ctor capacity;
  if ok then m_run h1 m ops else Ok (m, h1, []).

(** ... and destroy. *)
(** Client programs over am-hashtable.h:379-499; as [life] of HashTableModel. *)
Definition m_life (h : heap) (capacity : N) (ops : list (op Key Payload)) : outcome (heap * list (out Payload)) :=
  do (m, h1, outs) <- m_use h capacity ops;
  do h2 <- m_destroy h1 m;
  Ok (h2, outs).

End Mem.
Arguments MTable {Payload} obj ptr. Arguments obj {Payload} m. Arguments ptr {Payload} m.
Arguments m_changeCapacity {Payload} c alloc h m newCapacity. Arguments m_createTable {Payload} c alloc h capacity.
Arguments m_shrink {Payload} c alloc h m. Arguments m_grow {Payload} c alloc h m.
Arguments m_checkDensity {Payload} c alloc h m. Arguments m_internalAdd {Payload} c alloc h m i.
Arguments m_add {Payload} c alloc h m i p. Arguments m_ctor {Payload}. Arguments m_init {Payload} c alloc h m capacity.
Arguments m_destroy {Payload} h m. Arguments m_move_ctor {Payload} other.
Arguments m_step {Key Payload} hashf matches dflt c h m o. Arguments m_run {Key Payload} hashf matches dflt c h m ops.
Arguments m_use {Key Payload} hashf matches dflt c h capacity ops.
Arguments m_life {Key Payload} hashf matches dflt c h capacity ops.
