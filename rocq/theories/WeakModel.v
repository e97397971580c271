(** Thread-safe reference counting and AtomicRef (amtl/am-refcounting-threadsafe.h) under the C++11 memory model.

    AtomicRefModel.v runs the same code with sequentially consistent memory and ignores the memory_order arguments;
    here every atomic location has a modification order, loads may read old messages, and synchronisation happens
    only where the code's memory orders create it.

    - A message is a write to an atomic location: a value, the identity of the writing event, the view it releases,
      and whether it was written by a read-modify-write.  A location's history lists its messages, latest first in
      modification order.
    - A view is a set of events: those that happen before.  A thread's view is what happens before its next step.
    - A load may read any message unless the thread's view contains a later one (coherence).  A read-modify-write
      writes immediately after the message it reads, so it can only read a message that no other read-modify-write
      has read (atomicity).  A store may go anywhere after the messages in the thread's view, but not between a
      message and a read-modify-write that read it.
    - Acquire: the view of the message read is added to the thread's.  Release: the message's view is the thread's; a
      read-modify-write also passes on the view of the message it read (release sequences).
    - memory_order_seq_cst (the default) is treated as acquire and release only; the further guarantees of the single
      total order are not used, so the model has more executions than the language.
    - As in AtomicRefModel, out-of-thin-air executions (cycles of program order and reads-from) do not exist, and
      refcount_ is a natural number.
    - Data races: construction, deletion and use of an object conflict; an access that is not ordered after the
      construction, or a deletion that is not ordered after every access, is the fault [DataRace].  The same goes for
      AtomicRef objects.
    Only RefcountedThreadsafe is modelled here (VirtualRefcountedThreadsafe never deletes anything: C40). *)
From Verif Require Import Base AtomicRefModel.
Local Open Scope N_scope.

Notation view := (nat -> bool).
(** Views of the memory model that the accesses at am-refcounting-threadsafe.h:53-57, 140-142, 183-197 go to. *)
Definition vjoin (a b : view) : view := fun e => a e || b e.
Definition vadd (a : view) (e : nat) : view := fun x => Nat.eqb x e || a x.
Definition vempty : view := fun _ => false.

(** A write to refcount_ or thing_ (am-refcounting-threadsafe.h:49, 53, 56, 129, 132, 184, 197). *)
Record msg := Msg { mid : nat; mval : N; mview : view; mrmw : bool }.
Notation history := (list msg).
(** Insertion so that the new message is at position [i]. *)
Definition insert (h : history) (i : nat) (m : msg) : history := firstn i h ++ m :: skipn i h.

(** An object: creation number, the event of its construction, the events that used it since. *)
(** An object derived from am-refcounting-threadsafe.h:45-69. *)
Record wobj := WObj { wser : nat; ctor : nat; accs : list nat }.
(** Storage for an AtomicRef: none, under construction, or constructed by event [e], used by [us]. *)
(** An AtomicRef, am-refcounting-threadsafe.h:125-201. *)
Inductive wcell := WNone | WBusy | WLive (e : nat) (us : list nat) (h : history).
(** Program counters are those of AtomicRefModel. *)
(** A thread that calls the members of am-refcounting-threadsafe.h:45-198. *)
Record wthread := WThread { wpc : pc; wheld : list N; know : view }.
(** All objects and AtomicRefs of am-refcounting-threadsafe.h:45-201, with their histories. *)
Record wstate := W {
  wheap : N -> option wobj;
  counts : nat -> history;          (* refcount_ of the object with the given creation number *)
  wcells : list wcell;
  wths : list wthread;
  wfresh : nat; wdeleted : list nat;
  used : N -> option nat;           (* construction event of the last object created at this address *)
  freed : N -> view;                (* what happened before the address was last freed *)
  clock : nat                       (* the next event *)
}.

(** Client actions: those of AtomicRefModel, an access to an object through an owned reference, and synchronisation
    between threads by means of the client's own (a mutex, joining a thread, ...). *)
(** Calls of am-refcounting-threadsafe.h:48-162, and what the client does besides. *)
Inductive waction := WDo (a : action) | WTouch (a : N) | WSync (u : nat).
(** [i]: which message is read, or where a store goes, in steps that access an atomic. *)
(** A schedule of calls of am-refcounting-threadsafe.h:48-162. *)
Inductive wevent := WStart (t : nat) (a : waction) (i : nat) | WCont (t : nat) (i : nat).

Section Machine.
Variable debug : bool.
Variable cas_acquire : bool.    (* does the compare-exchange in lock() acquire?  In the code: no, line 185 *)

(** Access to the object at [a] by a thread with view [k]; the current event is recorded. *)
(** Any use of the object at am-refcounting-threadsafe.h:52-58. *)
Definition access (w : wstate) (k : view) (a : N) : outcome wobj :=
  match wheap w a with
  | None => Fault UseAfterFree
  | Some ob => if k (ctor ob) then Ok (WObj (wser ob) (ctor ob) (clock w :: accs ob)) else Fault DataRace
  end.
(** Any use of thing_ at am-refcounting-threadsafe.h:138-197. *)
Definition access_cell (w : wstate) (k : view) (c : nat) : outcome (nat * list nat * history) :=
  do x <- slot_get (wcells w) c;
  match x with
  | WLive e us h => if k e then Ok (e, clock w :: us, h) else Fault DataRace
  | _ => Fault UseAfterFree
  end.
(** Updates of the state, for the writes at am-refcounting-threadsafe.h:48-62, 131-198. *)
Definition wset (h : N -> option wobj) (a : N) (x : option wobj) : N -> option wobj := fun b => if a =? b then x else h b.
Definition cset (f : nat -> history) (n : nat) (h : history) : nat -> history := fun x => if Nat.eqb x n then h else f x.

Definition put_thread (w : wstate) (t : nat) (p : pc) (l : list N) (k : view) : outcome wstate :=
  do ts <- slot_set (wths w) t (WThread p l k);
  Ok (W (wheap w) (counts w) (wcells w) ts (wfresh w) (wdeleted w) (used w) (freed w) (S (clock w))).
Definition put_obj (w : wstate) (a : N) (ob : wobj) (h : history) : wstate :=
  W (wset (wheap w) a (Some ob)) (cset (counts w) (wser ob) h) (wcells w) (wths w) (wfresh w) (wdeleted w) (used w) (freed w) (clock w).
Definition put_cell (w : wstate) (c : nat) (x : wcell) : outcome wstate :=
  do cs <- slot_set (wcells w) c x;
  Ok (W (wheap w) (counts w) cs (wths w) (wfresh w) (wdeleted w) (used w) (freed w) (clock w)).

(** Loads (acquire): the message, and the thread's view afterwards. *)
(** The loads of am-refcounting-threadsafe.h:57, 140-142, 183, 188, 195, and the reading half of 53, 56: seq_cst, used as acquire. *)
Definition acquire (k : view) (e : nat) (m : msg) : view := vjoin (vadd (vadd k e) (mid m)) (mview m).
(** Relaxed reads learn only that the message exists (coherence). *)
Definition relaxed (k : view) (e : nat) (m : msg) : view := vadd (vadd k e) (mid m).

(** refcount_ += 1 and refcount_.fetch_sub(1), am-refcounting-threadsafe.h:53, 56: seq_cst read-modify-writes.  Returns the old value. *)
Definition rmw_count (w : wstate) (k : view) (a : N) (i : nat) (f : N -> N) : outcome (wstate * view * N) :=
  do ob <- access w k a;
  do m <- slot_get (counts w (wser ob)) i;
  let k' := acquire k (clock w) m in
  Ok (put_obj w a ob (insert (counts w (wser ob)) i (Msg (clock w) (f (mval m)) (vjoin (mview m) k') true)), k', mval m).

(** One atomic step of thread [t]. *)
Definition wcont (w : wstate) (t : nat) (p : pc) (l : list N) (k : view) (i : nat) : outcome (wstate * list obs) :=
  let e := clock w in
  match p with
  | Idle => Fault BadArg
  | NewP a | Add a =>                                              (* am-refcounting-threadsafe.h:52-54 *)
      do (r, _) <- rmw_count w k a i N.succ; let (w, k) := r in
      do w <- put_thread w t Idle (a :: l) k; Ok (w, [])
  | RelSub a c =>                                                  (* am-refcounting-threadsafe.h:56 *)
      do (r, old) <- rmw_count w k a i N.pred; let (w, k) := r in
      if old =? 1 then do w <- put_thread w t (RelAssert a c) l k; Ok (w, [])
      else do w <- put_thread w t Idle l k; Ok (w, finish t c)
  | RelAssert a c =>                                               (* am-refcounting-threadsafe.h:57 *)
      do ob <- access w k a;
      do m <- slot_get (counts w (wser ob)) i;
      do _ <- assert_ debug (mval m =? 0);
      do w <- put_thread (put_obj w a ob (counts w (wser ob))) t (RelDel a c) l (acquire k e m); Ok (w, [])
  | RelDel a c =>                                                  (* am-refcounting-threadsafe.h:58: the destructor, then the storage is freed *)
      match wheap w a with
      | None => Fault DoubleFree
      | Some ob =>
          if forallb k (ctor ob :: accs ob) then
            do w <- put_thread (W (wset (wheap w) a None) (counts w) (wcells w) (wths w) (wfresh w) (wser ob :: wdeleted w)
                                  (used w) (fun b => if a =? b then vadd k e else freed w b) (clock w)) t Idle l (vadd k e);
            Ok (w, finish t c)
          else Fault DataRace
      end
  | LkLoad c o =>                                                  (* am-refcounting-threadsafe.h:183, 188: seq_cst load *)
      do (r, h) <- access_cell w k c; let (e0, us) := r in
      do m <- slot_get h i;
      do w <- put_cell w c (WLive e0 us h);
      do w <- put_thread w t (LkCas c o (untagged (mval m))) l (acquire k e m); Ok (w, [])
  | LkCas c o old =>                                               (* am-refcounting-threadsafe.h:184-185: release if it succeeds, else relaxed *)
      do (r, h) <- access_cell w k c; let (e0, us) := r in
      do m <- slot_get h i;
      if mval m =? old then
        let k := if cas_acquire then acquire k e m else relaxed k e m in
        do w <- put_cell w c (WLive e0 us (insert h i (Msg e (tagged old) (vjoin (mview m) k) true)));
        do w <- put_thread w t (enter c o old) l k; Ok (w, [])
      else
        do w <- put_cell w c (WLive e0 us h);
        do w <- put_thread w t (LkLoad c o) l (relaxed k e m); Ok (w, [])
  | CritAdd c o v =>                                               (* am-refcounting-threadsafe.h:149, 158 *)
      do (r, _) <- rmw_count w k (target o v) i N.succ; let (w, k) := r in
      do w <- put_thread w t (UnA c o v) l k; Ok (w, [])
  | UnA c o v =>                                                   (* am-refcounting-threadsafe.h:195 *)
      do (r, h) <- access_cell w k c; let (e0, us) := r in
      do m <- slot_get h i;
      do w <- put_cell w c (WLive e0 us h);
      do w <- put_thread w t (UnB c o v (mval m)) l (acquire k e m); Ok (w, [])
  | UnB c o v x =>                                                 (* am-refcounting-threadsafe.h:195-196 *)
      do (r, h) <- access_cell w k c; let (e0, us) := r in
      do m <- slot_get h i;
      do _ <- assert_ debug (x =? tagged (mval m));
      do _ <- assert_ debug (target o v =? untagged (target o v));
      do w <- put_cell w c (WLive e0 us h);
      do w <- put_thread w t (UnStore c o v) l (acquire k e m); Ok (w, [])
  | UnStore c o v =>                                               (* am-refcounting-threadsafe.h:197: seq_cst store; then 151 / 160-161 *)
      do (r, h) <- access_cell w k c; let (e0, us) := r in
      let k := vadd k e in
      do w <- put_cell w c (WLive e0 us (insert h i (Msg e (target o v) k false)));
      match o with
      | OGet => do w <- put_thread w t Idle (if v =? 0 then l else v :: l) k; Ok (w, [Res t c OGet v])
      | OSet p =>
          do w <- put_thread w t (release_pc v (Some (c, p))) l k;
          Ok (w, if v =? 0 then [Res t c (OSet p) 0] else [])
      end
  | CtAdd c p =>                                                   (* am-refcounting-threadsafe.h:135-136; the AtomicRef is usable afterwards *)
      do (r, _) <- rmw_count w k p i N.succ; let (w, k) := r in
      do w <- put_cell w c (WLive e [] [Msg e p k false]);
      do w <- put_thread w t Idle l k; Ok (w, [])
  | DtA x =>                                                       (* am-refcounting-threadsafe.h:138-143 *)
      do _ <- assert_ debug (x =? untagged x);
      do w <- put_thread w t (release_pc x None) l (vadd k e); Ok (w, [])
  end.

(** Beginning an operation. *)
Definition wstart (w : wstate) (t : nat) (l : list N) (k : view) (a : waction) (i : nat) : outcome (wstate * list obs) :=
  let e := clock w in
  match a with
  | WTouch a =>
      do ob <- access w k a;
      do w <- put_thread (put_obj w a ob (counts w (wser ob))) t Idle l (vadd k e); Ok (w, [])
  | WSync u =>
      do th <- slot_get (wths w) u;
      do w <- put_thread w u (wpc th) (wheld th) (vjoin (know th) k); Ok (w, [])
  | WDo (ANew a) =>                                                (* am-refcounting-threadsafe.h:48-50; freeing storage happens before reusing it *)
      let k := vadd (vjoin k (freed w a)) e in
      do w <- put_thread (W (wset (wheap w) a (Some (WObj (wfresh w) e []))) (cset (counts w) (wfresh w) [Msg e 0 vempty false])
                            (wcells w) (wths w) (S (wfresh w)) (wdeleted w) (fun b => if a =? b then Some e else used w b)
                            (freed w) (clock w)) t (NewP a) l k;
      Ok (w, [])
  | WDo (AAddRef a) => do w <- put_thread w t (Add a) l k; Ok (w, [])
  | WDo (ARelease a) => do w <- put_thread w t (RelSub a None) (remove1 a l) k; Ok (w, [])
  | WDo (AGive a u) =>                                             (* synchronised by the client *)
      do w <- put_thread w t Idle (remove1 a l) k;
      do th <- slot_get (wths w) u;
      do w <- put_thread w u (wpc th) (a :: wheld th) (vjoin (know th) k); Ok (w, [])
  | WDo (AGet c) => do w <- put_thread w t (LkLoad c OGet) l k; Ok (w, [Inv t c OGet])
  | WDo (ASet c p) => do w <- put_thread w t (LkLoad c (OSet p)) l k; Ok (w, [Inv t c (OSet p)])
  | WDo (ACtor c p) =>                                             (* am-refcounting-threadsafe.h:128-137.  The first message is not a release,
                                                                      but whoever reads it already happens after it *)
      do _ <- assert_ debug (p mod 8 =? 0);
      if p =? 0
      then do w <- put_cell w c (WLive e [] [Msg e 0 (vadd k e) false]); do w <- put_thread w t Idle l (vadd k e); Ok (w, [])
      else do w <- put_cell w c WBusy; do w <- put_thread w t (CtAdd c p) l k; Ok (w, [])
  | WDo (ADtor c) =>                                               (* am-refcounting-threadsafe.h:138-143: the load *)
      do (r, h) <- access_cell w k c; let (e0, us) := r in
      if forallb k (tl us) then
        do m <- slot_get h i;
        do w <- put_cell w c WNone;
        do w <- put_thread w t (DtA (mval m)) l (acquire k e m); Ok (w, [])
      else Fault DataRace
  end.

(** A call of am-refcounting-threadsafe.h:48-162 begins, or goes on. *)
Definition wstep (w : wstate) (x : wevent) : outcome (wstate * list obs) :=
  match x with
  | WStart t a i => do th <- slot_get (wths w) t; wstart w t (wheld th) (know th) a i
  | WCont t i => do th <- slot_get (wths w) t; wcont w t (wpc th) (wheld th) (know th) i
  end.
(** A schedule of calls of am-refcounting-threadsafe.h:48-162. *)
Fixpoint wrun (w : wstate) (es : list wevent) : outcome (wstate * list obs) :=
  match es with
  | [] => Ok (w, [])
  | x :: r => do (w, o1) <- wstep w x; do (w, o2) <- wrun w r; Ok (w, o1 ++ o2)
  end.
(** Before any object of am-refcounting-threadsafe.h:45-201 exists. *)
Definition winit (n m : nat) : wstate :=
  W (fun _ => None) (fun _ => []) (repeat WNone m) (repeat (WThread Idle [] vempty) n) 0 [] (fun _ => None) (fun _ => vempty) 0.
End Machine.
