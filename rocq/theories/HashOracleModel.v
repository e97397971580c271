(** ke::HashTable (amtl/am-hashtable.h) under a HashPolicy with state: [hash] and [matches] may answer anything each time
    they are called, and may throw; the client catches the exception.

    The functions that call HashPolicy are transcribed again, with the exception as a result; all others are those of
    HashTableModel.v.  The n-th call of [matches] within one call of the table is given [n]: whatever state a policy has,
    its answers in one execution are of this form. *)
From Verif Require Import Base HashTableModel.
Local Open Scope N_scope.

Section Oracle.
Variable Key Payload : Type.
Variable dflt : Payload.
Variable c : cfg.

(** A call of am-hashtable.h:388-499 and what HashPolicy::hash and HashPolicy::matches (am-hashtable.h:113-121) do while
    it runs; [None]: they throw. *)
Record ocall := OCall { hash_at : Key -> option N; matches_at : nat -> Key -> Payload -> option bool; call_op : op Key Payload }.

Section Calls.
Variable x : ocall.

(** am-hashtable.h:144-151. *)
Definition computeHashO (k : Key) : option N :=
  match hash_at x k with Some h => Some (computeHash (fun _ : Key => h) k) | None => None end.

(** am-hashtable.h:302-310.  [None]: HashPolicy::matches (306) has thrown. *)
Fixpoint lookup_loopO (n : nat) (fuel : nat) (l : list (entry Payload)) (cp : N) (k : Key) (hash h : N) : outcome (option nat) :=
  match fuel with
  | O => Diverge
  | S f =>
      do e <- slot_get l (probe cp h);
      if isFree e then Ok (Some (probe cp h))
      else if isLive e && sameHash e hash then
        do p <- payload c e;
        match matches_at x n k p with
        | None => Ok None
        | Some true => Ok (Some (probe cp h))
        | Some false => lookup_loopO (S n) f l cp k hash (uadd 32 h 1)
        end
      else lookup_loopO n f l cp k hash (uadd 32 h 1)
  end.
(** am-hashtable.h:297-313, 430-433. *)
Definition findO (t : table Payload) (k : Key) : outcome (option nat) :=
  match computeHashO k with
  | None => Ok None
  | Some hash =>
      do _ <- probulator c (cap t);
      do l <- deref (tbl t);
      lookup_loopO 0 (N.to_nat (cap t)) l (cap t) k hash hash
  end.
(** am-hashtable.h:320-331. *)
Fixpoint lookupForAdd_loopO (n : nat) (fuel : nat) (l : list (entry Payload)) (cp : N) (k : Key) (hash h : N)
    (fr : option nat) : outcome (option (nat * option nat)) :=
  match fuel with
  | O => Diverge
  | S f =>
      do e <- slot_get l (probe cp h);
      if isFree e then Ok (Some (probe cp h, fr))
      else if removed e then
        lookupForAdd_loopO n f l cp k hash (uadd 32 h 1)
          (match fr with None => Some (probe cp h) | Some _ => fr end)
      else if sameHash e hash then
        do p <- payload c e;
        match matches_at x n k p with
        | None => Ok None
        | Some true => Ok (Some (probe cp h, fr))
        | Some false => lookupForAdd_loopO (S n) f l cp k hash (uadd 32 h 1) fr
        end
      else lookupForAdd_loopO n f l cp k hash (uadd 32 h 1) fr
  end.
(** am-hashtable.h:315-337, 436-439. *)
Definition findForAddO (t : table Payload) (k : Key) : outcome (option insert) :=
  match computeHashO k with
  | None => Ok None
  | Some hash =>
      do _ <- probulator c (cap t);
      do l <- deref (tbl t);
      do r <- lookupForAdd_loopO 0 (N.to_nat (cap t)) l (cap t) k hash hash None;
      match r with
      | None => Ok None
      | Some (s, fr) =>
          do e <- slot_get l s;
          match fr with
          | Some s' => if negb (isLive e) then Ok (Some (s', hash)) else Ok (Some (s, hash))
          | None => Ok (Some (s, hash))
          end
      end
  end.
(** am-hashtable.h:441-447. *)
Definition removeIfExistsO (t : table Payload) (k : Key) : outcome (table Payload * bool) :=
  do r <- findO t k;
  match r with
  | None => Ok (t, false)
  | Some s => do b <- found t s; if b then do t' <- remove c t s; Ok (t', true) else Ok (t, true)
  end.
End Calls.

(** One call of am-hashtable.h:388-499, with the result [None] if it throws.  The statements are those of [step] of
    HashTableModel.v. *)
Definition ostep (t : table Payload) (x : ocall) : outcome (table Payload * option (out Payload)) :=
  let on_insert k (go : insert -> outcome (table Payload * out Payload)) :=
    do r <- findForAddO x t k;
    match r with None => Ok (t, None) | Some i => do (t', q) <- go i; Ok (t', Some q) end in
  let on_result k (go : nat -> outcome (table Payload * out Payload)) :=
    do r <- findO x t k;
    match r with None => Ok (t, None) | Some s => do (t', q) <- go s; Ok (t', Some q) end in
  match call_op x with
  | OAdd k p alloc => on_insert k (fun i =>
      do b <- found t (fst i);
      if b then do q <- read c t (fst i); Ok (t, RFound q)
      else
        do (t', i', ok) <- add c alloc t i p;
        if ok then do q <- read c t' (fst i'); Ok (t', RAdded q) else Ok (t', RFailed))
  | OAddInPlace k p alloc => on_insert k (fun i =>
      do b <- found t (fst i);
      if b then do q <- read c t (fst i); Ok (t, RFound q)
      else
        do (t', i', ok) <- add c alloc t i dflt;
        if ok then
          do t'' <- write c t' (fst i') p;
          do q <- read c t'' (fst i'); Ok (t'', RAdded q)
        else Ok (t', RFailed))
  | OSet k p alloc => on_insert k (fun i =>
      do b <- found t (fst i);
      if b then
        do q <- read c t (fst i);
        do t' <- write c t (fst i) p; Ok (t', RFound q)
      else
        do (t', i', ok) <- add c alloc t i p;
        if ok then do q <- read c t' (fst i'); Ok (t', RAdded q) else Ok (t', RFailed))
  | OUpdate k p => on_result k (fun s =>
      do b <- found t s;
      if b then
        do q <- read c t s;
        do t' <- write c t s p; Ok (t', RFound q)
      else Ok (t, RAbsent))
  | OFind k => on_result k (fun s =>
      do b <- found t s;
      if b then do q <- read c t s; Ok (t, RFound q) else Ok (t, RAbsent))
  | OFindForAdd k => on_insert k (fun i =>
      do b <- found t (fst i);
      if b then do q <- read c t (fst i); Ok (t, RFound q) else Ok (t, RAbsent))
  | ORemove k => do (t', ok) <- removeIfExistsO x t k; Ok (t', if ok then Some RUnit else None)
  | o => (* calls that use no HashPolicy: clear, checkDensity, the move constructor, iteration, elements *)
      do (t', r) <- step (fun _ => 0) (fun _ _ => false) dflt c t o; Ok (t', Some r)
  end.
(** A sequence of calls of am-hashtable.h:388-499. *)
Fixpoint orun (t : table Payload) (xs : list ocall) : outcome (table Payload * list (option (out Payload))) :=
  match xs with
  | [] => Ok (t, [])
  | x :: rest =>
      do (t', r) <- ostep t x;
      do (t'', rs) <- orun t' rest;
      Ok (t'', r :: rs)
  end.
(** am-hashtable.h:379-427 and 403-407 around a sequence of calls, as [life] of HashTableModel. *)
Definition olife (capacity : N) (xs : list ocall) : outcome (table Payload * list (option (out Payload))) :=
  do (t, ok) <- init c true ctor capacity;
  if ok then
    do (t', outs) <- orun t xs;
    do _ <- destroy t';
    Ok (t', outs)
  else Ok (t, []).
End Oracle.
Arguments OCall {Key Payload} hash_at matches_at call_op. Arguments hash_at {Key Payload} o k.
Arguments matches_at {Key Payload} o n k p. Arguments call_op {Key Payload} o.
Arguments computeHashO {Key Payload} x k.
Arguments lookup_loopO {Key Payload} c x n fuel l cp k hash h. Arguments findO {Key Payload} c x t k.
Arguments lookupForAdd_loopO {Key Payload} c x n fuel l cp k hash h fr. Arguments findForAddO {Key Payload} c x t k.
Arguments removeIfExistsO {Key Payload} c x t k.
Arguments ostep {Key Payload} dflt c t x. Arguments orun {Key Payload} dflt c t xs.
Arguments olife {Key Payload} dflt c capacity xs.
