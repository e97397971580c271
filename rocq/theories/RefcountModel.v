(** Model of single-threaded reference counting: ke::Refcounted, VirtualRefcounted, AlreadyRefed, RefPtr
    (amtl/am-refcounting.h).

    Objects live in a heap addressed by index; an object has a reference count and any number of RefPtr members.
    Handles are local variables (RefPtr, AlreadyRefed, or a raw pointer that owns one reference) and the RefPtr
    members of objects.  Simplifications: refcount_ is a natural number (RcWidthModel.v has
    uintptr_t and RcWidthProps.v why it cannot wrap); destructors of objects do nothing but destroy their RefPtr members; the templated
    converting constructors (RefPtr<S>, AlreadyRefed<S>) are the same code as the plain ones. VirtualRefcounted
    has the same code plus an assertion that AddRef is not called during destruction, which here is the
    UseAfterFree fault of [get_alive]. *)
From Verif Require Import Base.

Inductive ostate := Alive | Dying | Dead.
(** am-refcounting.h:134-135 and the client's members. *)
Record obj := Obj { rc : nat; st : ostate; flds : list (option nat) }.
(** [log]: destroyed objects, most recent first (what the client's destructors could observe). *)
Record heap := Heap { objs : list obj; log : list nat }.

(** RefPtr<T> thing_ (am-refcounting.h:318), AlreadyRefed<T> thing_ (99), T* owning one reference. *)
Inductive var := VRef (p : option nat) | VAl (p : option nat) | VRaw (p : option nat).
Record state := State { hp : heap; vars : list (option var) }.

(** A RefPtr: local variable or member [j] of object [y]. *)
(** A RefPtr object (am-refcounting.h:317-318). *)
Inductive loc := LVar (v : nat) | LFld (y j : nat).

Section Refcount.
Variable debug : bool.

(** Access to an object through a pointer. *)
(** Member access through a T*, as at am-refcounting.h:122-129. *)
Definition get_alive (h : heap) (o : nat) : outcome obj :=
  do ob <- slot_get (objs h) o;
  match st ob with Alive => Ok ob | _ => Fault UseAfterFree end.
(** Changes to an object, e.g. refcount_ (am-refcounting.h:123, 127). *)
Definition set_obj (h : heap) (o : nat) (ob : obj) : heap := Heap (upd (objs h) o ob) (log h).

(** am-refcounting.h:122-124. *)
Definition obj_AddRef (h : heap) (o : nat) : outcome heap :=
  do ob <- get_alive h o; Ok (set_obj h o (Obj (S (rc ob)) Alive (flds ob))).
(** am-refcounting.h:308-311. *)
Definition AddRef (h : heap) (p : option nat) : outcome heap :=
  match p with Some o => obj_AddRef h o | None => Ok h end.

(** The end of [delete]: the storage is gone. *)
(** The end of the delete at am-refcounting.h:128. *)
Definition finish (h : heap) (o : nat) : outcome heap :=
  do ob <- slot_get (objs h) o;
  match st ob with
  | Dying => Ok (Heap (upd (objs h) o (Obj 0 Dead [])) (o :: log h))
  | _ => Fault DoubleFree
  end.

(** A list of RefPtr members being destroyed one after the other; [rel] releases one object. *)
Fixpoint release_list (rel : heap -> nat -> outcome heap) (h : heap) (ps : list (option nat)) : outcome heap :=
  match ps with
  | [] => Ok h
  | None :: r => release_list rel h r
  | Some o :: r => do h <- rel h o; release_list rel h r
  end.

(** am-refcounting.h:125-129: assert(refcount_ > 0); if (--refcount_ == 0) delete this.  The destructor of the
    object destroys its RefPtr members in reverse order (am-refcounting.h:232-234, 312-315). [fuel] bounds the
    depth of nested destructors. *)
Fixpoint obj_Release (fuel : nat) (h : heap) (o : nat) : outcome heap :=
  match fuel with
  | O => Diverge
  | S f =>
      do ob <- get_alive h o;
      do _ <- assert_ debug (0 <? rc ob);
      match rc ob with
      | O => Ok h   (* wraps to 2^64-1; never reached, see the theorems *)
      | S O =>
          do h <- release_list (obj_Release f) (set_obj h o (Obj 0 Dying (flds ob))) (rev (flds ob));
          finish h o
      | S n => Ok (set_obj h o (Obj n Alive (flds ob)))
      end
  end.
(** am-refcounting.h:312-315. *)
Definition Release (h : heap) (p : option nat) : outcome heap :=
  match p with Some o => obj_Release (S (length (objs h))) h o | None => Ok h end.

(** Storage accesses. *)
(** A RefPtr, AlreadyRefed or raw pointer variable of the client (am-refcounting.h:51-318). *)
Definition get_var (s : state) (v : nat) : outcome var :=
  do x <- slot_get (vars s) v; match x with Some w => Ok w | None => Fault Uninit end.
(** A RefPtr, AlreadyRefed or raw pointer variable of the client (am-refcounting.h:51-318). *)
Definition set_var (s : state) (v : nat) (x : option var) : outcome state :=
  do l <- slot_set (vars s) v x; Ok (State (hp s) l).
(** Constructing in an unused variable slot. *)
(** The constructors of am-refcounting.h:58-74, 195-231 need storage without an object. *)
Definition new_var (s : state) (v : nat) (x : var) : outcome state :=
  do y <- slot_get (vars s) v;
  match y with Some _ => Fault Leak | None => set_var s v (Some x) end.

(** [thing_] of the RefPtr at [l]. *)
(** Reads of thing_ (am-refcounting.h:236-263, 317-318). *)
Definition read (s : state) (l : loc) : outcome (option nat) :=
  match l with
  | LVar v => do w <- get_var s v; match w with VRef p => Ok p | _ => Fault BadArg end
  | LFld y j => do ob <- get_alive (hp s) y; slot_get (flds ob) j
  end.
(** Assignments to thing_ (am-refcounting.h:195-227, 265-292). *)
Definition write (s : state) (l : loc) (p : option nat) : outcome state :=
  match l with
  | LVar v => do w <- get_var s v; match w with VRef _ => set_var s v (Some (VRef p)) | _ => Fault BadArg end
  | LFld y j =>
      do ob <- get_alive (hp s) y;
      do fs <- slot_set (flds ob) j p;
      Ok (State (set_obj (hp s) y (Obj (rc ob) (st ob) fs)) (vars s))
  end.
(** A change to the objects (am-refcounting.h:114-136) that leaves the variables alone. *)
Definition lift (s : state) (x : outcome heap) : outcome state := do h <- x; Ok (State h (vars s)).

(** AlreadyRefed variables and owned raw pointers. *)
(** thing_ of an AlreadyRefed (am-refcounting.h:51-100). *)
Definition get_al (s : state) (w : nat) : outcome (option nat) :=
  do x <- get_var s w; match x with VAl p => Ok p | _ => Fault BadArg end.
Definition get_raw (s : state) (w : nat) : outcome (option nat) :=
  do x <- get_var s w; match x with VRaw p => Ok p | _ => Fault BadArg end.

(** new T: refcount 0 (am-refcounting.h:118-120), k RefPtr members, all null. *)
Definition alloc (s : state) (k : nat) : state * nat :=
  (State (Heap (objs (hp s) ++ [Obj 0 Alive (repeat None k)]) (log (hp s))) (vars s), length (objs (hp s))).

Inductive op :=
| CtorNull (v : nat)            (* RefPtr<T> v;                       am-refcounting.h:201-203 *)
| CtorNew (v k : nat)           (* RefPtr<T> v(new T);                am-refcounting.h:195-199 *)
| CtorRaw (v : nat) (l : loc)   (* RefPtr<T> v(l.get());              am-refcounting.h:195-199 *)
| CtorCopy (v : nat) (l : loc)  (* RefPtr<T> v(l);                    am-refcounting.h:205-209 *)
| CtorMove (v : nat) (l : loc)  (* RefPtr<T> v(std::move(l));         am-refcounting.h:210-214 *)
| CtorAlready (v w : nat)       (* RefPtr<T> v(w), w AlreadyRefed;    am-refcounting.h:225-227 *)
| AssignNull (l : loc)          (* l = nullptr (as a T pointer);      am-refcounting.h:265-271 *)
| AssignNew (l : loc) (k : nat) (* l = new T;                         am-refcounting.h:265-271 *)
| AssignRaw (l m : loc)         (* l = m.get();                       am-refcounting.h:265-271 *)
| AssignCopy (l m : loc)        (* l = m;                             am-refcounting.h:280-285 *)
| AssignMove (l m : loc)        (* l = std::move(m);                  am-refcounting.h:287-292 *)
| AssignAlready (l : loc) (w : nat) (* l = w, w AlreadyRefed;         am-refcounting.h:273-278 *)
| Take (v : nat) (l : loc)      (* AlreadyRefed v = l.take() / forget();  am-refcounting.h:258-263 *)
| AlNull (v : nat)              (* AlreadyRefed v(nullptr);           am-refcounting.h:58-60 *)
| AlCopy (v w : nat)            (* AlreadyRefed v(w);                 am-refcounting.h:64-69 *)
| AlMove (v w : nat)            (* AlreadyRefed v(std::move(w));      am-refcounting.h:70-74 *)
| AlTake (v w : nat)            (* raw v = w.take();                  am-refcounting.h:94-96 *)
| Adopt (v w : nat)             (* AlreadyRefed v = AdoptRef(w), w owned raw; am-refcounting.h:102-107 *)
| Destroy (v : nat).            (* ~RefPtr (am-refcounting.h:232-234) / ~AlreadyRefed (75-78) *)

Definition step (s : state) (o : op) : outcome state :=
  match o with
  | CtorNull v => new_var s v (VRef None)
  | CtorNew v k =>
      let '(s, n) := alloc s k in
      do s <- new_var s v (VRef (Some n)); lift s (AddRef (hp s) (Some n))
  | CtorRaw v l | CtorCopy v l =>
      do p <- read s l; do s <- new_var s v (VRef p); lift s (AddRef (hp s) p)
  | CtorMove v l => do p <- read s l; do s <- new_var s v (VRef p); write s l None
  | CtorAlready v w =>
      do p <- get_al s w; do s <- set_var s w (Some (VAl None)); new_var s v (VRef p)
  | AssignNull l => do p <- read s l; do s <- lift s (Release (hp s) p); write s l None
  | AssignNew l k =>
      let '(s, n) := alloc s k in
      do p <- read s l; do s <- lift s (Release (hp s) p);
      do s <- write s l (Some n); do q <- read s l; lift s (AddRef (hp s) q)
  | AssignRaw l m =>
      do q <- read s m;
      do p <- read s l; do s <- lift s (Release (hp s) p);
      do s <- write s l q; do q <- read s l; lift s (AddRef (hp s) q)
  | AssignCopy l m =>
      do p <- read s l; do s <- lift s (Release (hp s) p);
      do q <- read s m; do s <- write s l q; do q <- read s l; lift s (AddRef (hp s) q)
  | AssignMove l m =>
      do p <- read s l; do s <- lift s (Release (hp s) p);
      do q <- read s m; do s <- write s l q; write s m None
  | AssignAlready l w =>
      do p <- read s l; do s <- lift s (Release (hp s) p);
      do q <- get_al s w; do s <- set_var s w (Some (VAl None)); write s l q
  | Take v l => do p <- read s l; do s <- write s l None; new_var s v (VAl p)
  | AlNull v => new_var s v (VAl None)
  | AlCopy v w => do p <- get_al s w; do s <- new_var s v (VAl p); lift s (AddRef (hp s) p)
  | AlMove v w => do p <- get_al s w; do s <- new_var s v (VAl p); set_var s w (Some (VAl None))
  | AlTake v w => do p <- get_al s w; do s <- set_var s w (Some (VAl None)); new_var s v (VRaw p)
  | Adopt v w => do p <- get_raw s w; do s <- set_var s w None; new_var s v (VAl p)
  | Destroy v =>
      do w <- get_var s v;
      match w with
      | VRef p | VAl p => do s <- lift s (Release (hp s) p); set_var s v None
      | VRaw _ => Fault Leak
      end
  end.

Fixpoint run (s : state) (ops : list op) : outcome state :=
  match ops with
  | [] => Ok s
  | o :: r => do s <- step s o; run s r
  end.
(** [n] unused variable slots, empty heap. *)
(** A client program before its first operation on am-refcounting.h:51-318. *)
Definition init (n : nat) : state := State (Heap [] []) (repeat None n).
End Refcount.
