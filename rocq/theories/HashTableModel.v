(** Model of ke::HashTable (amtl/am-hashtable.h), shared by HashMap and HashSet.

    A table pointer is [option (list entry)] ([None] = nullptr), an [Entry*] into the current table is its
    index, uint32_t counters are [N] with explicit wrap.  Storage for the payload of an entry is a [cell]:
    raw memory, a constructed object, or a moved-from object that still has to be destroyed.
    Not modelled: exceptions thrown by payload constructors, and payload constructors that re-enter the table. *)
From Verif Require Import Base BitsModel.
Local Open Scope N_scope.

Section HashTable.
Variable Key Payload : Type.
(** HashPolicy::hash, HashPolicy::matches (am-hashtable.h:113-121), and [Payload()]. *)
Variable hashf : Key -> N.
Variable matches : Key -> Payload -> bool.
Variable dflt : Payload.

Inductive cell := Raw | Val (p : Payload) | Moved.
(** am-hashtable.h:46-108: hash_ and the storage of t_. *)
Record entry := Entry { e_hash : N; e_pay : cell }.

Record cfg := Cfg {
  sizeof_entry : N;   (* sizeof(Entry) *)
  debug : bool;       (* NDEBUG not defined *)
  aborts : bool       (* the AllocPolicy aborts on failure (SystemAllocatorPolicy); false: it returns null *)
}.
Variable c : cfg.

(** am-hashtable.h:548-552. *)
Record table := Table { cap : N; nelem : N; ndel : N; tbl : option (list entry); mincap : N }.

Definition kFreeHash : N := 0.       (* am-hashtable.h:52 *)
Definition kRemovedHash : N := 1.    (* am-hashtable.h:53 *)
Definition kMinCapacity : N := 16.   (* am-hashtable.h:141 *)
Definition kMaxCapacity : N := 2147483647 / sizeof_entry c.   (* am-hashtable.h:142 *)

(** am-hashtable.h:84-92. *)
Definition removed (e : entry) : bool := e_hash e =? kRemovedHash.
Definition isFree (e : entry) : bool := e_hash e =? kFreeHash.
Definition isLive (e : entry) : bool := kRemovedHash <? e_hash e.
(** am-hashtable.h:101-103. *)
Definition sameHash (e : entry) (h : N) : bool := e_hash e =? h.
(** am-hashtable.h:56-58. *)
Definition setHash (e : entry) (h : N) : entry := Entry h (e_pay e).
(** am-hashtable.h:59-65. *)
Definition construct (e : entry) (p : Payload) : outcome entry :=
  match e_pay e with Raw => Ok (Entry (e_hash e) (Val p)) | _ => Fault Leak end.
(** am-hashtable.h:80-83. *)
Definition destruct_ (e : entry) : outcome entry :=
  if isLive e then
    match e_pay e with Raw => Fault DoubleFree | _ => Ok (Entry (e_hash e) Raw) end
  else Ok e.
(** am-hashtable.h:69-76. *)
Definition setRemoved (e : entry) : outcome entry :=
  do e' <- destruct_ e; Ok (setHash e' kRemovedHash).
Definition setFree (e : entry) : outcome entry :=
  do e' <- destruct_ e; Ok (setHash e' kFreeHash).
(** am-hashtable.h:93-100, followed by a read of the object. *)
Definition payload (e : entry) : outcome Payload :=
  do _ <- assert_ (debug c) (isLive e);
  match e_pay e with Val p => Ok p | Raw => Fault Uninit | Moved => Fault MovedFrom end.
(** Assignment through [payload()]; requires a constructed object. *)
(** am-hashtable.h:182-187: operator* and operator-> give a reference, assigned to by the client. *)
Definition assign (e : entry) (p : Payload) : outcome entry :=
  do _ <- assert_ (debug c) (isLive e);
  match e_pay e with Raw => Fault Uninit | _ => Ok (Entry (e_hash e) (Val p)) end.
(** [std::move(payload())] into a new object: returns the value and the moved-from entry. *)
Definition move_out (e : entry) : outcome (Payload * entry) :=
  do p <- payload e; Ok (p, Entry (e_hash e) Moved).

(** am-hashtable.h:144-151. *)
Definition computeHash (k : Key) : N :=
  let hash := umul 32 (hashf k) 0x9E3779B9 in
  if (hash =? kFreeHash) || (hash =? kRemovedHash) then uadd 32 hash 2 else hash.

(** AllocPolicy: [alloc] says whether malloc succeeds (am-allocator-policies.h:42-68). *)
Definition reportAllocationOverflow : outcome unit :=
  if aborts c then Fault Abort else Ok tt.
Definition am_malloc_table (alloc : bool) (capacity : N) : outcome (option (list entry)) :=
  if alloc then Ok (Some (repeat (Entry kFreeHash Raw) (N.to_nat capacity)))
  else if aborts c then Fault Abort else Ok None.

(** am-hashtable.h:153-164.  The loop writing hash_ = kFreeHash into every entry is folded into the
    allocation. *)
Definition createTable (alloc : bool) (capacity : N) : outcome (option (list entry)) :=
  do _ <- assert_ (debug c) (capacity <=? kMaxCapacity);
  am_malloc_table alloc capacity.

(** [table_[i]] as an lvalue. *)
(** am-hashtable.h:269-270, 287, 302, 320: table_[i] with table_ null is undefined. *)
Definition deref (t : option (list entry)) : outcome (list entry) :=
  match t with Some l => Ok l | None => Fault NullDeref end.

(** am_free(table): the memory must not hold constructed payloads. *)
(** am-hashtable.h:278, 406: the am_free of a table. *)
Definition is_raw (e : entry) : bool := match e_pay e with Raw => true | _ => false end.
Definition am_free (l : list entry) : outcome unit :=
  if forallb is_raw l then Ok tt else Fault Leak.

(** am-hashtable.h:223-229. *)
Definition probe (cp hash : N) : nat := N.to_nat (N.land hash (usub 32 cp 1)).
(** am-hashtable.h:216-221. *)
Definition probulator (cp : N) : outcome unit := assert_ (debug c) (IsPowerOfTwo 64 cp).

(** am-hashtable.h:232-239. *)
Definition underloaded (t : table) : bool :=
  (kMinCapacity <? cap t) && (uadd 32 (nelem t) (ndel t) <? cap t / 4).
Definition overloaded (t : table) : bool :=
  uadd 32 (cap t / 2) (cap t / 4) <? uadd 32 (nelem t) (ndel t).

(** am-hashtable.h:283-295.  Result: slot.  The loop has no exit but the break; [fuel] is the capacity: a probe
    that has visited [capacity] slots without stopping is back where it started and never stops. *)
Fixpoint insertUnique_loop (fuel : nat) (l : list entry) (cp h : N) : outcome nat :=
  match fuel with
  | O => Diverge
  | S f =>
      do e <- slot_get l (probe cp h);
      if isFree e || removed e then Ok (probe cp h)
      else insertUnique_loop f l cp (uadd 32 h 1)
  end.
Definition insertUnique (l : list entry) (cp h : N) : outcome nat :=
  do _ <- probulator cp;
  insertUnique_loop (N.to_nat cp) l cp h.

(** am-hashtable.h:269-277: the loop of changeCapacity over the old table; returns the new table and the old one
    as it is just before am_free. *)
Fixpoint rehash (old : list entry) (l : list entry) (cp : N) : outcome (list entry * list entry) :=
  match old with
  | [] => Ok (l, [])
  | e :: rest =>
      if isLive e then
        do s <- insertUnique l cp (e_hash e);
        do e1 <- slot_get l s;
        do (p, e') <- move_out e;
        do e2 <- construct (setHash e1 (e_hash e)) p;
        do l' <- slot_set l s e2;
        do e'' <- destruct_ e';
        do (r, o) <- rehash rest l' cp;
        Ok (r, e'' :: o)
      else
        do e'' <- destruct_ e;
        do (r, o) <- rehash rest l cp;
        Ok (r, e'' :: o)
  end.

(** am-hashtable.h:255-281. *)
Definition changeCapacity (alloc : bool) (t : table) (newCapacity : N) : outcome (table * bool) :=
  do _ <- assert_ (debug c) (newCapacity <=? kMaxCapacity);
  do nt <- createTable alloc newCapacity;
  match nt with
  | None => Ok (t, false)
  | Some l =>
      do old <- deref (tbl t);
      do (l', old') <- rehash old l newCapacity;
      do _ <- am_free old';
      Ok (Table newCapacity (nelem t) 0 (Some l') (mincap t), true)
  end.

(** am-hashtable.h:241-245. *)
Definition shrink (alloc : bool) (t : table) : outcome (table * bool) :=
  if N.shiftr (cap t) 1 <? mincap t then Ok (t, true)
  else changeCapacity alloc t (N.shiftr (cap t) 1).

(** am-hashtable.h:247-253. *)
Definition grow (alloc : bool) (t : table) : outcome (table * bool) :=
  if kMaxCapacity <=? cap t then
    do _ <- reportAllocationOverflow; Ok (t, false)
  else changeCapacity alloc t (ushl 32 (cap t) 1).

(** am-hashtable.h:470-476. *)
Definition checkDensity (alloc : bool) (t : table) : outcome (table * bool) :=
  if underloaded t then shrink alloc t
  else if overloaded t then grow alloc t
  else Ok (t, true).

(** am-hashtable.h:297-313.  Result: slot of the returned entry. *)
Fixpoint lookup_loop (fuel : nat) (l : list entry) (cp : N) (k : Key) (hash h : N) : outcome nat :=
  match fuel with
  | O => Diverge
  | S f =>
      do e <- slot_get l (probe cp h);
      if isFree e then Ok (probe cp h)
      else if isLive e && sameHash e hash then
        do p <- payload e;
        if matches k p then Ok (probe cp h)
        else lookup_loop f l cp k hash (uadd 32 h 1)
      else lookup_loop f l cp k hash (uadd 32 h 1)
  end.
(** am-hashtable.h:297-313, 430-433. *)
Definition find (t : table) (k : Key) : outcome nat :=
  let hash := computeHash k in
  do _ <- probulator (cap t);
  do l <- deref (tbl t);
  lookup_loop (N.to_nat (cap t)) l (cap t) k hash hash.

(** am-hashtable.h:320-331. [fr] = firstRemoved. *)
Fixpoint lookupForAdd_loop (fuel : nat) (l : list entry) (cp : N) (k : Key) (hash h : N)
    (fr : option nat) : outcome (nat * option nat) :=
  match fuel with
  | O => Diverge
  | S f =>
      do e <- slot_get l (probe cp h);
      if isFree e then Ok (probe cp h, fr)
      else if removed e then
        lookupForAdd_loop f l cp k hash (uadd 32 h 1)
          (match fr with None => Some (probe cp h) | Some _ => fr end)
      else if sameHash e hash then
        do p <- payload e;
        if matches k p then Ok (probe cp h, fr)
        else lookupForAdd_loop f l cp k hash (uadd 32 h 1) fr
      else lookupForAdd_loop f l cp k hash (uadd 32 h 1) fr
  end.
(** Insert (am-hashtable.h:194-207): entry pointer and hash. *)
Definition insert := (nat * N)%type.
(** am-hashtable.h:315-337, 436-439. *)
Definition findForAdd (t : table) (k : Key) : outcome insert :=
  let hash := computeHash k in
  do _ <- probulator (cap t);
  do l <- deref (tbl t);
  do (s, fr) <- lookupForAdd_loop (N.to_nat (cap t)) l (cap t) k hash hash None;
  do e <- slot_get l s;
  match fr with
  | Some s' => if negb (isLive e) then Ok (s', hash) else Ok (s, hash)
  | None => Ok (s, hash)
  end.

(** am-hashtable.h:189-191. *)
Definition found (t : table) (s : nat) : outcome bool :=
  do l <- deref (tbl t); do e <- slot_get l s; Ok (isLive e).
(** am-hashtable.h:182-187: reading through the Result. *)
Definition read (t : table) (s : nat) : outcome Payload :=
  do l <- deref (tbl t); do e <- slot_get l s; payload e.
(** ... and assigning through it. *)
Definition write (t : table) (s : nat) (p : Payload) : outcome table :=
  do l <- deref (tbl t);
  do e <- slot_get l s;
  do e' <- assign e p;
  do l' <- slot_set l s e';
  Ok (Table (cap t) (nelem t) (ndel t) (Some l') (mincap t)).

(** am-hashtable.h:339-369 and 454-468 (internalAdd and add).  [p] is the payload constructed. *)
Definition internalAdd (alloc : bool) (t : table) (i : insert) : outcome (table * insert * bool) :=
  do b <- found t (fst i);
  do _ <- assert_ (debug c) (negb b);
  do l <- deref (tbl t);
  do e <- slot_get l (fst i);
  do (t1, i1, ok) <-
    (if removed e then
       Ok (Table (cap t) (nelem t) (usub 32 (ndel t) 1) (tbl t) (mincap t), i, true)
     else if nelem t =? kMaxCapacity then
       do _ <- reportAllocationOverflow; Ok (t, i, false)
     else
       do (t', ok) <- checkDensity alloc t;
       if negb ok then Ok (t', i, false)
       else if negb (cap t' =? cap t) then
         do l' <- deref (tbl t');
         do s <- insertUnique l' (cap t') (snd i);
         Ok (t', (s, snd i), true)
       else Ok (t', i, true));
  if ok then
    do l1 <- deref (tbl t1);
    do e1 <- slot_get l1 (fst i1);
    do l2 <- slot_set l1 (fst i1) (setHash e1 (snd i1));
    Ok (Table (cap t1) (uadd 32 (nelem t1) 1) (ndel t1) (Some l2) (mincap t1), i1, true)
  else Ok (t1, i1, false).

Definition add (alloc : bool) (t : table) (i : insert) (p : Payload) : outcome (table * insert * bool) :=
  do (t1, i1, ok) <- internalAdd alloc t i;
  if ok then
    do l <- deref (tbl t1);
    do e <- slot_get l (fst i1);
    do e' <- construct e p;
    do l' <- slot_set l (fst i1) e';
    Ok (Table (cap t1) (nelem t1) (ndel t1) (Some l') (mincap t1), i1, true)
  else Ok (t1, i1, false).

(** am-hashtable.h:371-376. *)
Definition removeEntry (t : table) (s : nat) : outcome table :=
  do l <- deref (tbl t);
  do e <- slot_get l s;
  do _ <- assert_ (debug c) (isLive e);
  do e' <- setRemoved e;
  do l' <- slot_set l s e';
  Ok (Table (cap t) (usub 32 (nelem t) 1) (uadd 32 (ndel t) 1) (Some l') (mincap t)).
(** am-hashtable.h:449-452. *)
Definition remove (t : table) (s : nat) : outcome table :=
  do b <- found t s;
  do _ <- assert_ (debug c) b;
  removeEntry t s.
(** am-hashtable.h:441-447. *)
Definition removeIfExists (t : table) (k : Key) : outcome table :=
  do s <- find t k;
  do b <- found t s;
  if b then remove t s else Ok t.

(** am-hashtable.h:379-386. *)
Definition ctor : table := Table 0 0 0 None kMinCapacity.

(** am-hashtable.h:409-427. *)
Definition init (alloc : bool) (t : table) (capacity : N) : outcome (table * bool) :=
  let go cp :=
    do _ <- assert_ (debug c) (IsPowerOfTwo 64 cp);
    do tb <- createTable alloc (uw 32 cp);
    Ok (Table (uw 32 cp) (nelem t) (ndel t) tb (uw 32 cp), match tb with Some _ => true | None => false end) in
  if capacity <? kMinCapacity then go kMinCapacity
  else if kMaxCapacity <? capacity then do _ <- reportAllocationOverflow; Ok (t, false)
  else go capacity.

Fixpoint map_outcome {A B} (f : A -> outcome B) (l : list A) : outcome (list B) :=
  match l with
  | [] => Ok []
  | x :: r => do y <- f x; do ys <- map_outcome f r; Ok (y :: ys)
  end.

(** am-hashtable.h:478-484.  The loop runs over [i < capacity_]; the table has exactly that many entries, a
    null table with a non-zero capacity is dereferenced. *)
Definition for_entries (t : table) (f : entry -> outcome entry) : outcome (option (list entry)) :=
  if cap t =? 0 then Ok (tbl t)
  else
    do l <- deref (tbl t);
    if Nat.ltb (length l) (N.to_nat (cap t)) then Fault OutOfBounds
    else
      do l' <- map_outcome f (firstn (N.to_nat (cap t)) l);
      Ok (Some (l' ++ skipn (N.to_nat (cap t)) l)).
Definition clear (t : table) : outcome table :=
  do tb <- for_entries t setFree;
  Ok (Table (cap t) 0 0 tb (mincap t)).

(** am-hashtable.h:403-407. *)
Definition destroy (t : table) : outcome unit :=
  do tb <- for_entries t destruct_;
  match tb with None => Ok tt (* free(nullptr) *) | Some l => am_free l end.

(** am-hashtable.h:388-401: (new object, old object). *)
Definition move_ctor (other : table) : table * table :=
  (Table (cap other) (nelem other) (ndel other) (tbl other) (mincap other),
   Table 0 0 0 None kMinCapacity).

(** am-hashtable.h:493-499. *)
Definition elements (t : table) : N := nelem t.
Definition estimateMemoryUse (t : table) : N := sizeof_entry c * cap t.

(** am-hashtable.h:503-541.  Iterator position = index; end = capacity.  Advance from [i] to the next live slot. *)
Fixpoint skip_dead (fuel : nat) (l : list entry) (cp i : nat) : outcome nat :=
  match fuel with
  | O => Diverge
  | S f =>
      if Nat.ltb i cp then
        do e <- slot_get l i;
        if isLive e then Ok i else skip_dead f l cp (S i)
      else Ok i
  end.
Definition entries (t : table) : list entry := match tbl t with Some l => l | None => [] end.
(** for (auto it = iter(); !it.empty(); it.next()) visit( *it ); if (pred) it.erase(); *)
(** The client loop over am-hashtable.h:503-541. *)
Fixpoint iter_loop (fuel : nat) (pred : Payload -> bool) (t : table) (i : nat) (acc : list Payload)
    : outcome (table * list Payload) :=
  match fuel with
  | O => Diverge
  | S f =>
      let cp := N.to_nat (cap t) in
      if Nat.eqb i cp then Ok (t, rev acc)
      else
        do e <- slot_get (entries t) i;
        do p <- payload e;
        do t' <- (if pred p then removeEntry t i else Ok t);
        do j <- skip_dead (S (length (entries t'))) (entries t') cp (S i);
        iter_loop f pred t' j (p :: acc)
  end.
(** The client loop over am-hashtable.h:503-541. *)
Definition iterate (pred : Payload -> bool) (t : table) : outcome (table * list Payload) :=
  do i <- skip_dead (S (length (entries t))) (entries t) (N.to_nat (cap t)) 0;
  iter_loop (S (length (entries t))) pred t i [].

(** ** Client programs: sequences of operations with their observable results *)
(** Client calls of am-hashtable.h:388-499; not code of /repo. *)
Inductive op :=
| OAdd (k : Key) (p : Payload) (alloc : bool)
    (* i = findForAdd(k); if (i.found()) read *i, else if add(i, p) read *i *)
| OAddInPlace (k : Key) (p : Payload) (alloc : bool)
    (* i = findForAdd(k); if (!i.found() && add(i)) *i = p, read *i *)
| OSet (k : Key) (p : Payload) (alloc : bool)
    (* i = findForAdd(k); if (i.found()) *i = p; else add(i, p) *)
| OUpdate (k : Key) (p : Payload)          (* r = find(k); if (r.found()) *r = p *)
| OFind (k : Key)                          (* r = find(k); found and *r *)
| OFindForAdd (k : Key)                    (* i = findForAdd(k); found and *i *)
| ORemove (k : Key)                        (* removeIfExists(k) *)
| OClear
| OCheckDensity (alloc : bool)
| OMove                                    (* T t2(std::move(t)); destroy t; continue with t2 *)
| OEraseIf (pred : Payload -> bool)        (* iterate, erasing the payloads satisfying pred *)
| OIterate                                 (* iterate, collecting *)
| OElements.

(** Observable results of the calls of am-hashtable.h:388-499. *)
Inductive out :=
| RUnit
| RFound (p : Payload)        (* already present / found, with the payload read *)
| RAbsent
| RAdded (p : Payload)        (* add() returned true; payload then read through the Insert *)
| RFailed                     (* add() / checkDensity() returned false *)
| RList (l : list Payload)
| RNum (n : N).

(** One client call of am-hashtable.h:388-499. *)
Definition step (t : table) (o : op) : outcome (table * out) :=
  match o with
  | OAdd k p alloc =>
      do i <- findForAdd t k;
      do b <- found t (fst i);
      if b then do q <- read t (fst i); Ok (t, RFound q)
      else
        do (t', i', ok) <- add alloc t i p;
        if ok then do q <- read t' (fst i'); Ok (t', RAdded q) else Ok (t', RFailed)
  | OAddInPlace k p alloc =>
      do i <- findForAdd t k;
      do b <- found t (fst i);
      if b then do q <- read t (fst i); Ok (t, RFound q)
      else
        do (t', i', ok) <- add alloc t i dflt;
        if ok then
          do t'' <- write t' (fst i') p;
          do q <- read t'' (fst i'); Ok (t'', RAdded q)
        else Ok (t', RFailed)
  | OSet k p alloc =>
      do i <- findForAdd t k;
      do b <- found t (fst i);
      if b then
        do q <- read t (fst i);
        do t' <- write t (fst i) p; Ok (t', RFound q)
      else
        do (t', i', ok) <- add alloc t i p;
        if ok then do q <- read t' (fst i'); Ok (t', RAdded q) else Ok (t', RFailed)
  | OUpdate k p =>
      do s <- find t k;
      do b <- found t s;
      if b then
        do q <- read t s;
        do t' <- write t s p; Ok (t', RFound q)
      else Ok (t, RAbsent)
  | OFind k =>
      do s <- find t k;
      do b <- found t s;
      if b then do q <- read t s; Ok (t, RFound q) else Ok (t, RAbsent)
  | OFindForAdd k =>
      do i <- findForAdd t k;
      do b <- found t (fst i);
      if b then do q <- read t (fst i); Ok (t, RFound q) else Ok (t, RAbsent)
  | ORemove k => do t' <- removeIfExists t k; Ok (t', RUnit)
  | OClear => do t' <- clear t; Ok (t', RUnit)
  | OCheckDensity alloc =>
      do (t', ok) <- checkDensity alloc t; Ok (t', if ok then RUnit else RFailed)
  | OMove =>
      let '(t', old) := move_ctor t in
      do _ <- destroy old; Ok (t', RUnit)
  | OEraseIf pred => do (t', l) <- iterate pred t; Ok (t', RList l)
  | OIterate => do (t', l) <- iterate (fun _ => false) t; Ok (t', RList l)
  | OElements => Ok (t, RNum (elements t))
  end.

(** A sequence of client calls of am-hashtable.h:388-499. *)
Fixpoint run (t : table) (ops : list op) : outcome (table * list out) :=
  match ops with
  | [] => Ok (t, [])
  | o :: rest =>
      do (t', r) <- step t o;
      do (t'', rs) <- run t' rest;
      Ok (t'', r :: rs)
  end.

(** The whole life of a table: construct, init (first allocation granted), use, destroy. *)
(** am-hashtable.h:379-427 and 403-407 around a sequence of client calls. *)
Definition life (capacity : N) (ops : list op) : outcome (table * list out) :=
  do (t, ok) <- init true ctor capacity;
  if ok then
    do (t', outs) <- run t ops;
    do _ <- destroy t';
    Ok (t', outs)
  else Ok (t, []).

End HashTable.

Arguments Raw {Payload}. Arguments Val {Payload} p. Arguments Moved {Payload}.
Arguments Entry {Payload} e_hash e_pay. Arguments e_hash {Payload} e. Arguments e_pay {Payload} e.
Arguments Table {Payload}. Arguments cap {Payload} t. Arguments nelem {Payload} t. Arguments ndel {Payload} t.
Arguments tbl {Payload} t. Arguments mincap {Payload} t.
Arguments removed {Payload} e. Arguments isFree {Payload} e. Arguments isLive {Payload} e.
Arguments sameHash {Payload} e h. Arguments setHash {Payload} e h. Arguments construct {Payload} e p.
Arguments destruct_ {Payload} e. Arguments setRemoved {Payload} e. Arguments setFree {Payload} e.
Arguments payload {Payload} c e. Arguments assign {Payload} c e p. Arguments move_out {Payload} c e.
Arguments computeHash {Key} hashf k.
Arguments am_malloc_table {Payload} c alloc capacity. Arguments createTable {Payload} c alloc capacity.
Arguments deref {Payload} t. Arguments is_raw {Payload} e. Arguments am_free {Payload} l.
Arguments underloaded {Payload} t. Arguments overloaded {Payload} t.
Arguments insertUnique_loop {Payload} fuel l cp h. Arguments insertUnique {Payload} c l cp h.
Arguments rehash {Payload} c old l cp. Arguments changeCapacity {Payload} c alloc t newCapacity.
Arguments shrink {Payload} c alloc t. Arguments grow {Payload} c alloc t. Arguments checkDensity {Payload} c alloc t.
Arguments lookup_loop {Key Payload} matches c fuel l cp k hash h.
Arguments find {Key Payload} hashf matches c t k.
Arguments lookupForAdd_loop {Key Payload} matches c fuel l cp k hash h fr.
Arguments findForAdd {Key Payload} hashf matches c t k.
Arguments found {Payload} t s. Arguments read {Payload} c t s. Arguments write {Payload} c t s p.
Arguments internalAdd {Payload} c alloc t i. Arguments add {Payload} c alloc t i p.
Arguments removeEntry {Payload} c t s. Arguments remove {Payload} c t s.
Arguments removeIfExists {Key Payload} hashf matches c t k.
Arguments ctor {Payload}. Arguments init {Payload} c alloc t capacity.
Arguments for_entries {Payload} t f. Arguments clear {Payload} t. Arguments destroy {Payload} t.
Arguments move_ctor {Payload} other. Arguments elements {Payload} t. Arguments estimateMemoryUse {Payload} c t.
Arguments skip_dead {Payload} fuel l cp i. Arguments entries {Payload} t.
Arguments iter_loop {Payload} c fuel pred t i acc. Arguments iterate {Payload} c pred t.
Arguments OAdd {Key Payload} k p alloc. Arguments OAddInPlace {Key Payload} k p alloc.
Arguments OSet {Key Payload} k p alloc. Arguments OUpdate {Key Payload} k p. Arguments OFind {Key Payload} k.
Arguments OFindForAdd {Key Payload} k. Arguments ORemove {Key Payload} k. Arguments OClear {Key Payload}.
Arguments OCheckDensity {Key Payload} alloc. Arguments OMove {Key Payload}.
Arguments OEraseIf {Key Payload} pred. Arguments OIterate {Key Payload}. Arguments OElements {Key Payload}.
Arguments RUnit {Payload}. Arguments RFound {Payload} p. Arguments RAbsent {Payload}. Arguments RAdded {Payload} p.
Arguments RFailed {Payload}. Arguments RList {Payload} l. Arguments RNum {Payload} n.
Arguments step {Key Payload} hashf matches dflt c t o.
Arguments run {Key Payload} hashf matches dflt c t ops.
Arguments life {Key Payload} hashf matches dflt c capacity ops.
