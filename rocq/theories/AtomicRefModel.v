(** Model of thread-safe reference counting: ke::RefcountedThreadsafe, VirtualRefcountedThreadsafe and AtomicRef
    (amtl/am-refcounting-threadsafe.h).

    A finite number of threads interleave atomic steps (sequential consistency; the memory_order arguments of the
    CAS in AtomicRef::lock are not modelled).  Each access to an atomic variable is one step.  Objects live at
    machine addresses; a freed address may be allocated again.  Simplifications: refcount_ is a natural number
    (size_t cannot wrap: every reference occupies storage); the assert(!destroying_) of
    VirtualRefcountedThreadsafe::AddRef is evaluated in the same step as the increment it precedes. *)
From Verif Require Import Base.
Local Open Scope N_scope.

(** Which class: am-refcounting-threadsafe.h:45-70 or 82-112. *)
Inductive variant := Plain | Virtual.

(** [ser]: creation number (ghost); [cnt]: refcount_; [dying]: destroying_. *)
(** An object derived from am-refcounting-threadsafe.h:45-112. *)
Record tobj := Tobj { ser : nat; cnt : nat; dying : bool }.
(** Where the objects of am-refcounting-threadsafe.h:45-112 live. *)
Definition heap := N -> option tobj.
Definition hset (h : heap) (a : N) (x : option tobj) : heap := fun b => if a =? b then x else h b.

(** AtomicRef storage: none, under construction, or constructed with the given thing_ word (am-refcounting-threadsafe.h:200-201). *)
Inductive cell := CNone | CBusy | CLive (w : N).

(** am-refcounting-threadsafe.h:170-175: ptr | 1 and ptr & ~1. *)
Definition tagged (p : N) : N := N.lor p 1.
Definition untagged (p : N) : N := N.ldiff p 1.

(** The two critical-section operations, and the constructor. *)
(** am-refcounting-threadsafe.h:146-152 get, 155-162 operator =. *)
Inductive rop := OGet | OSet (p : N).

(** What an operation on cell [c] still has to do after releasing a reference: report completion of an assignment. *)
(** The points between the atomic accesses of am-refcounting-threadsafe.h:48-62, 85-105, 131-162, 177-198. *)
Inductive pc :=
| Idle
| NewP (a : N)                              (* object allocated with count 0, about to AddRef *)
| Add (a : N)                               (* about to execute AddRef *)
| RelSub (a : N) (k : option (nat * N))     (* about to execute refcount_.fetch_sub(1) *)
| RelAssert (a : N) (k : option (nat * N))  (* about to evaluate assert(refcount_.load() == 0) *)
| RelDel (a : N) (k : option (nat * N))     (* about to execute delete *)
| LkLoad (c : nat) (o : rop)                (* lock(): about to load thing_ *)
| LkCas (c : nat) (o : rop) (old : N)       (* lock(): about to compare_exchange_strong *)
| CritAdd (c : nat) (o : rop) (v : N)       (* locked; about to AddRef *)
| UnA (c : nat) (o : rop) (v : N)           (* unlock(): about to load thing_ (first operand) *)
| UnB (c : nat) (o : rop) (v x : N)         (* unlock(): about to load thing_ (second operand) *)
| UnStore (c : nat) (o : rop) (v : N)       (* unlock(): about to store *)
| CtAdd (c : nat) (p : N)                   (* AtomicRef(T ptr): about to AddRef *)
| DtA (w : N).                              (* ~AtomicRef: about to evaluate the assertion *)

(** A thread and the references (addresses, with multiplicity) it owns. *)
(** A thread that calls the members of am-refcounting-threadsafe.h:45-198, and the references it owns. *)
Record thread := Thread { tpc : pc; held : list N }.
(** [fresh]: number of objects created; [deleted]: creation numbers of deleted objects, latest first (ghosts). *)
(** The objects, the AtomicRefs (am-refcounting-threadsafe.h:125-201) and the threads. *)
Record state := State { hp : heap; cells : list cell; threads : list thread; fresh : nat; deleted : list nat }.

(** Client actions. *)
(** The public members of am-refcounting-threadsafe.h:45-162. *)
Inductive action :=
| ANew (a : N)                (* RefPtr p(new T), the allocator returning address a *)
| AAddRef (a : N)             (* copy an owned reference *)
| ARelease (a : N)            (* drop an owned reference *)
| AGive (a : N) (u : nat)     (* hand an owned reference to thread u *)
| AGet (c : nat)              (* cell c: get() *)
| ASet (c : nat) (p : N)      (* cell c: operator =(p) *)
| ACtor (c : nat) (p : N)     (* construct AtomicRef(p) in cell c *)
| ADtor (c : nat).            (* destroy the AtomicRef in cell c *)
(** Scheduler: thread [t] begins an operation, or executes its next atomic step. *)
(** A schedule of calls of am-refcounting-threadsafe.h:45-162. *)
Inductive event := EStart (t : nat) (a : action) | ECont (t : nat).

(** Invocations and responses of AtomicRef operations, as the clients see them. *)
(** Calls and returns of am-refcounting-threadsafe.h:146-162. *)
Inductive obs := Inv (t c : nat) (o : rop) | Res (t c : nat) (o : rop) (r : N).

Fixpoint remove1 (a : N) (l : list N) : list N :=
  match l with [] => [] | b :: r => if a =? b then r else b :: remove1 a r end.

Section Machine.
Variable vt : variant.
Variable debug : bool.

(** refcount_ += 1 (am-refcounting-threadsafe.h:53, 95), after assert(!destroying_) (94). *)
Definition addref (h : heap) (a : N) : outcome heap :=
  match h a with
  | None => Fault UseAfterFree
  | Some ob =>
      do _ <- match vt with Plain => Ok tt | Virtual => assert_ debug (negb (dying ob)) end;
      Ok (hset h a (Some (Tobj (ser ob) (S (cnt ob)) (dying ob))))
  end.

Definition setpc (s : state) (t : nat) (p : pc) (l : list N) : outcome state :=
  do ts <- slot_set (threads s) t (Thread p l); Ok (State (hp s) (cells s) ts (fresh s) (deleted s)).
Definition sethp (s : state) (h : heap) : state := State h (cells s) (threads s) (fresh s) (deleted s).
Definition setcell (s : state) (c : nat) (x : cell) : outcome state :=
  do cs <- slot_set (cells s) c x; Ok (State (hp s) cs (threads s) (fresh s) (deleted s)).
Definition load (s : state) (c : nat) : outcome N :=
  do x <- slot_get (cells s) c; match x with CLive w => Ok w | _ => Fault UseAfterFree end.

(** Completion of an operation that ends with Release. *)
Definition finish (t : nat) (k : option (nat * N)) : list obs :=
  match k with Some (c, p) => [Res t c (OSet p) 0] | None => [] end.

(** Address that the critical section of [o] adds a reference to and then stores (am-refcounting-threadsafe.h:147-150, 156-159). *)
Definition target (o : rop) (v : N) : N := match o with OGet => v | OSet p => p end.
(** After lock(): am-refcounting-threadsafe.h:148 "if (value)", 157 "if (other)". *)
Definition enter (c : nat) (o : rop) (v : N) : pc := if target o v =? 0 then UnA c o v else CritAdd c o v.
(** Release() of a value if not null. *)
(** am-refcounting-threadsafe.h:141-142, 160-161: Release() of a value if not null. *)
Definition release_pc (a : N) (k : option (nat * N)) : pc := if a =? 0 then Idle else RelSub a k.

(** One atomic step of thread [t], whose control point is [p] and which owns [l]. *)
Definition cont (s : state) (t : nat) (p : pc) (l : list N) : outcome (state * list obs) :=
  match p with
  | Idle => Fault BadArg
  | NewP a | Add a =>   (* am-refcounting-threadsafe.h:52-54, 93-96 *)
      do h <- addref (hp s) a; do s <- setpc (sethp s h) t Idle (a :: l); Ok (s, [])
  | RelSub a k =>       (* am-refcounting-threadsafe.h:56 (compares with 1), 98 (compares with 0) *)
      match hp s a with
      | None => Fault UseAfterFree
      | Some ob =>
          let s := sethp s (hset (hp s) a (Some (Tobj (ser ob) (pred (cnt ob)) (dying ob)))) in
          if Nat.eqb (cnt ob) (match vt with Plain => 1%nat | Virtual => 0%nat end)
          then do s <- setpc s t (RelAssert a k) l; Ok (s, [])
          else do s <- setpc s t Idle l; Ok (s, finish t k)
      end
  | RelAssert a k =>    (* am-refcounting-threadsafe.h:57, 99-102 *)
      match hp s a with
      | None => Fault UseAfterFree
      | Some ob =>
          do _ <- assert_ debug (Nat.eqb (cnt ob) 0);
          let s := match vt with Plain => s | Virtual => sethp s (hset (hp s) a (Some (Tobj (ser ob) (cnt ob) true))) end in
          do s <- setpc s t (RelDel a k) l; Ok (s, [])
      end
  | RelDel a k =>       (* am-refcounting-threadsafe.h:58, 103 *)
      match hp s a with
      | None => Fault DoubleFree
      | Some ob =>
          do s <- setpc (State (hset (hp s) a None) (cells s) (threads s) (fresh s) (ser ob :: deleted s)) t Idle l;
          Ok (s, finish t k)
      end
  | LkLoad c o =>       (* am-refcounting-threadsafe.h:183, 188 *)
      do w <- load s c; do s <- setpc s t (LkCas c o (untagged w)) l; Ok (s, [])
  | LkCas c o old =>    (* am-refcounting-threadsafe.h:184-187 *)
      do w <- load s c;
      if w =? old
      then do s <- setcell s c (CLive (tagged old)); do s <- setpc s t (enter c o old) l; Ok (s, [])
      else do s <- setpc s t (LkLoad c o) l; Ok (s, [])
  | CritAdd c o v =>    (* am-refcounting-threadsafe.h:149, 158 *)
      do h <- addref (hp s) (target o v); do s <- setpc (sethp s h) t (UnA c o v) l; Ok (s, [])
  | UnA c o v =>        (* am-refcounting-threadsafe.h:195 *)
      do x <- load s c; do s <- setpc s t (UnB c o v x) l; Ok (s, [])
  | UnB c o v x =>      (* am-refcounting-threadsafe.h:195-196 *)
      do y <- load s c;
      do _ <- assert_ debug (x =? tagged y);
      do _ <- assert_ debug (target o v =? untagged (target o v));
      do s <- setpc s t (UnStore c o v) l; Ok (s, [])
  | UnStore c o v =>    (* am-refcounting-threadsafe.h:197, then 151 / 160-161 *)
      do _ <- load s c;
      do s <- setcell s c (CLive (target o v));
      match o with
      | OGet => do s <- setpc s t Idle (if v =? 0 then l else v :: l); Ok (s, [Res t c OGet v])
      | OSet p =>
          do s <- setpc s t (release_pc v (Some (c, p))) l;
          Ok (s, if v =? 0 then [Res t c (OSet p) 0] else [])
      end
  | CtAdd c p =>        (* am-refcounting-threadsafe.h:135-136 *)
      do h <- addref (hp s) p; do s <- setcell (sethp s h) c (CLive p); do s <- setpc s t Idle l; Ok (s, [])
  | DtA w =>            (* am-refcounting-threadsafe.h:138-143 *)
      do _ <- assert_ debug (w =? untagged w);
      do s <- setpc s t (release_pc w None) l; Ok (s, [])
  end.

(** Beginning an operation. *)
Definition start (s : state) (t : nat) (l : list N) (a : action) : outcome (state * list obs) :=
  match a with
  | ANew a =>           (* am-refcounting-threadsafe.h:48-50, 85-91 *)
      do s <- setpc (State (hset (hp s) a (Some (Tobj (fresh s) 0 false))) (cells s) (threads s) (S (fresh s)) (deleted s)) t (NewP a) l; Ok (s, [])
  | AAddRef a => do s <- setpc s t (Add a) l; Ok (s, [])
  | ARelease a => do s <- setpc s t (RelSub a None) (remove1 a l); Ok (s, [])
  | AGive a u =>
      do s <- setpc s t Idle (remove1 a l);
      do th <- slot_get (threads s) u;
      do s <- setpc s u (tpc th) (a :: held th); Ok (s, [])
  | AGet c => do s <- setpc s t (LkLoad c OGet) l; Ok (s, [Inv t c OGet])
  | ASet c p => do s <- setpc s t (LkLoad c (OSet p)) l; Ok (s, [Inv t c (OSet p)])
  | ACtor c p =>        (* am-refcounting-threadsafe.h:128-137: thing_(thing); assert(IsAligned(thing, sizeof(void ptr))) *)
      do _ <- assert_ debug (p mod 8 =? 0);
      if p =? 0
      then do s <- setcell s c (CLive 0); Ok (s, [])
      else do s <- setcell s c CBusy; do s <- setpc s t (CtAdd c p) l; Ok (s, [])
  | ADtor c =>
      do w <- load s c; do s <- setcell s c CNone; do s <- setpc s t (DtA w) l; Ok (s, [])
  end.

(** A call of am-refcounting-threadsafe.h:48-162 begins, or goes on. *)
Definition step (s : state) (e : event) : outcome (state * list obs) :=
  match e with
  | EStart t a => do th <- slot_get (threads s) t; start s t (held th) a
  | ECont t => do th <- slot_get (threads s) t; cont s t (tpc th) (held th)
  end.

(** The execution of a schedule, and the observations in order. *)
(** A schedule of calls of am-refcounting-threadsafe.h:48-162. *)
Fixpoint run (s : state) (es : list event) : outcome (state * list obs) :=
  match es with
  | [] => Ok (s, [])
  | e :: r => do (s, o1) <- step s e; do (s, o2) <- run s r; Ok (s, o1 ++ o2)
  end.

(** [n] idle threads, [m] unused cells, nothing allocated. *)
(** Before any object of am-refcounting-threadsafe.h:45-201 exists. *)
Definition init (n m : nat) : state := State (fun _ => None) (repeat CNone m) (repeat (Thread Idle []) n) 0 [].
End Machine.
