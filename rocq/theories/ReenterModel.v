(** Model of reference counting whose destructors run client code: ke::Refcounted and RefPtr (amtl/am-refcounting.h), where
    the destructor of a client class uses RefPtrs itself, so that Release() re-enters the RefPtr that called it.

    RefcountModel.v covers objects whose destructors only destroy their members.  Here a class has a destructor body, a list
    of commands [script c]; the RefPtrs a command can name are the global ones and the members of the object being
    destroyed.  Every object has the same number of RefPtr members (unused ones are null).  Simplifications: refcount_ is a
    natural number that does not wrap upwards; decrementing 0 gives [wrap] (2^64-1); templated overloads are the same code.
    [fuel] bounds the length of the whole execution: a destructor can create objects without end.

    The flag [chk] switches on an observer that stops with the fault BadArg when a command uses a RefPtr that is in the middle
    of being assigned, or relies on an object that the caller does not hold; [chk = false] is the C++ program. *)
From Verif Require Import Base.

(** Alive; body of the destructor running; members being destroyed; storage gone. *)
(** The stages of the delete of am-refcounting.h:128. *)
Inductive ostate := Alive | Dying | Ending | Dead.
(** am-refcounting.h:134-135, the client's class, and its RefPtr members (am-refcounting.h:317-318). *)
Record obj := Obj { rc : nat; st : ostate; cls : nat; mem : list (option nat) }.
(** Global RefPtrs; [log]: the objects whose destruction is complete, most recent first. *)
(** The objects of am-refcounting.h:115 and the global RefPtrs (am-refcounting.h:317-318) of a program. *)
Record world := World { objs : list obj; globs : list (option nat); log : list nat }.
(** A RefPtr: global variable, or member [j] of object [o]. *)
(** A RefPtr object (am-refcounting.h:317-318). *)
Inductive loc := LG (v : nat) | LM (o j : nat).
(** How client code names one: a global, or this->member. *)
(** How client code names a RefPtr (am-refcounting.h:317-318). *)
Inductive path := PG (v : nat) | PThis (j : nat).

Inductive cmd :=
| Null (l : path)                            (* l = nullptr;                        am-refcounting.h:265-271 *)
| New (l : path) (c : nat) (ms : list path)  (* l = new C(ms...), the members copied from ms;  205-209, 265-271 *)
| Copy (l m : path)                          (* l = m;                              280-285 *)
| CopyRaw (l m : path)                       (* l = m.get();                        265-271 *)
| Move (l m : path)                          (* l = std::move(m);                   287-292 *)
| Hold (m : path) (body : list cmd)          (* { RefPtr<T> tmp(m); body }          205-209, 232-234 *)
| Store (v j : nat) (m : path).              (* if (g) g->member = m, g a global;   280-285 *)

(** Where a command runs: the object under destruction, the RefPtrs being assigned, and the objects held by temporaries. *)
(** The dynamic context of client code called from the delete of am-refcounting.h:128 (ghost, except this). *)
Record ctx := Ctx { this : option nat; busy : list loc; pins : list (option nat) }.

(** Equality of RefPtr addresses (am-refcounting.h:317-318); used by the observer only. *)
Definition loc_eqb (a b : loc) : bool :=
  match a, b with
  | LG i, LG j => i =? j
  | LM y i, LM z j => (y =? z) && (i =? j)
  | _, _ => false
  end.
(** Equality of object addresses (am-refcounting.h:317-318); used by the observer only. *)
Definition opt_eqb (a b : option nat) : bool :=
  match a, b with Some x, Some y => x =? y | None, None => true | _, _ => false end.

Section Reenter.
Variable debug : bool.
Variable wrap : nat.
Variable chk : bool.
Variable script : nat -> list cmd.

(** Which RefPtr (am-refcounting.h:317-318) a client command means. *)
Definition res (c : ctx) (p : path) : outcome loc :=
  match p with
  | PG v => Ok (LG v)
  | PThis j => match this c with Some o => Ok (LM o j) | None => Fault NullDeref end
  end.
(** The observer. *)
(** Observer of uses of a RefPtr inside its own assignment (am-refcounting.h:265-292); not code of /repo. *)
Definition touch (c : ctx) (l : loc) : outcome unit :=
  if chk && existsb (loc_eqb l) (busy c) then Fault BadArg else Ok tt.
(** Observer of uses of objects nobody holds (am-refcounting.h:122-129); not code of /repo. *)
Definition pinned (c : ctx) (q : option nat) : outcome unit :=
  if chk && negb (existsb (opt_eqb q) (None :: pins c)) then Fault BadArg else Ok tt.
(** Bookkeeping for [touch] (am-refcounting.h:265-292); not code of /repo. *)
Definition assigning (c : ctx) (l : loc) : ctx := Ctx (this c) (l :: busy c) (pins c).

(** thing_ of a RefPtr: the members of an object exist until its destructor body has run. *)
(** Reads of thing_ (am-refcounting.h:236-263, 317-318). *)
Definition read (s : world) (l : loc) : outcome (option nat) :=
  match l with
  | LG v => slot_get (globs s) v
  | LM o j => do ob <- slot_get (objs s) o;
      match st ob with Alive | Dying => slot_get (mem ob) j | _ => Fault UseAfterFree end
  end.
(** Changes to an object, e.g. refcount_ (am-refcounting.h:123, 127). *)
Definition set_obj (s : world) (o : nat) (ob : obj) : world := World (upd (objs s) o ob) (globs s) (log s).
(** Assignments to thing_ (am-refcounting.h:195-227, 265-292). *)
Definition write (s : world) (l : loc) (q : option nat) : outcome world :=
  match l with
  | LG v => do g <- slot_set (globs s) v q; Ok (World (objs s) g (log s))
  | LM o j => do ob <- slot_get (objs s) o;
      match st ob with
      | Alive | Dying => do m <- slot_set (mem ob) j q; Ok (set_obj s o (Obj (rc ob) (st ob) (cls ob) m))
      | _ => Fault UseAfterFree
      end
  end.
(** am-refcounting.h:122-124, 308-311; the count is there until the storage is gone. *)
Definition add_ref (s : world) (q : option nat) : outcome world :=
  match q with
  | None => Ok s
  | Some o => do ob <- slot_get (objs s) o;
      match st ob with
      | Dead => Fault UseAfterFree
      | _ => Ok (set_obj s o (Obj (S (rc ob)) (st ob) (cls ob) (mem ob)))
      end
  end.
(** The members of a new object: am-refcounting.h:205-209. *)
Fixpoint copies (c : ctx) (s : world) (ms : list path) : outcome (world * list (option nat)) :=
  match ms with
  | [] => Ok (s, [])
  | m :: r =>
      do l <- res c m; do _ <- touch c l; do q <- read s l; do s <- add_ref s q;
      do (s, qs) <- copies c s r; Ok (s, q :: qs)
  end.

(** One command, given how to run a list of commands and how to release an object. *)
Section Step.
Variable exec : ctx -> world -> list cmd -> outcome world.
Variable rel : ctx -> world -> nat -> outcome world.
(** am-refcounting.h:312-315. *)
Definition relp (c : ctx) (s : world) (q : option nat) : outcome world :=
  match q with Some o => rel c s o | None => Ok s end.
(** The first line of every operator =: Release(), with thing_ still in place. *)
Definition release_old (c : ctx) (s : world) (l : loc) : outcome world :=
  do _ <- touch c l; do p <- read s l; relp (assigning c l) s p.
(** operator = of a raw pointer: am-refcounting.h:265-271, after the Release(). *)
Definition put (s : world) (l : loc) (q : option nat) : outcome world := do s <- write s l q; add_ref s q.
(** operator =(const RefPtr&): am-refcounting.h:280-285; the source is read after the Release(). *)
Definition copy_assign (c : ctx) (s : world) (l m : loc) : outcome world :=
  do s <- release_old c s l; do _ <- touch (assigning c l) m; do q <- read s m; put s l q.
Definition step (c : ctx) (s : world) (k : cmd) : outcome world :=
  match k with
  | Null l => do l <- res c l; do s <- release_old c s l; put s l None
  | New l k ms =>
      do (s, qs) <- copies c s ms;
      let n := length (objs s) in
      let s := World (objs s ++ [Obj 0 Alive k qs]) (globs s) (log s) in      (* 118-120 *)
      do l <- res c l; do s <- release_old c s l; put s l (Some n)
  | Copy l m => do l <- res c l; do m <- res c m; copy_assign c s l m
  | CopyRaw l m =>
      do m <- res c m; do _ <- touch c m; do q <- read s m; do _ <- pinned c q;
      do l <- res c l; do s <- release_old c s l; put s l q
  | Move l m =>                                                               (* 287-292 *)
      do l <- res c l; do m <- res c m;
      do s <- release_old c s l; do _ <- touch (assigning c l) m; do q <- read s m;
      do s <- write s l q; write s m None
  | Hold m body =>
      do m <- res c m; do _ <- touch c m; do q <- read s m; do s <- add_ref s q;
      do s <- exec (Ctx (this c) (busy c) (q :: pins c)) s body;
      relp c s q
  | Store v j m =>
      do m <- res c m; do _ <- touch c (LG v); do g <- read s (LG v);
      match g with
      | None => Ok s
      | Some o => do _ <- pinned c g; copy_assign c s (LM o j) m
      end
  end.
(** The members of a destroyed object, one after the other: am-refcounting.h:232-234. *)
Fixpoint drop_members (c : ctx) (s : world) (qs : list (option nat)) : outcome world :=
  match qs with
  | [] => Ok s
  | q :: r => do s <- relp c s q; drop_members c s r
  end.
(** delete static_cast<T*>(this): body of the destructor, members in reverse order, end of the storage. *)
Definition destroy (c : ctx) (s : world) (o : nat) : outcome world :=
  do ob <- slot_get (objs s) o;
  match st ob with
  | Alive =>
      let s := set_obj s o (Obj (rc ob) Dying (cls ob) (mem ob)) in
      do s <- exec (Ctx (Some o) (busy c) (pins c)) s (script (cls ob));
      do ob <- slot_get (objs s) o;
      let s := set_obj s o (Obj (rc ob) Ending (cls ob) (mem ob)) in
      do s <- drop_members (Ctx None (busy c) (pins c)) s (rev (mem ob));
      do ob <- slot_get (objs s) o;
      Ok (World (upd (objs s) o (Obj (rc ob) Dead (cls ob) [])) (globs s) (o :: log s))
  | _ => Fault DoubleFree
  end.
(** Refcounted::Release: am-refcounting.h:125-129. *)
Definition release (c : ctx) (s : world) (o : nat) : outcome world :=
  do ob <- slot_get (objs s) o;
  match st ob with
  | Dead => Fault UseAfterFree
  | _ =>
      do _ <- assert_ debug (0 <? rc ob);
      let n := match rc ob with O => wrap | S n => n end in
      let s := set_obj s o (Obj n (st ob) (cls ob) (mem ob)) in
      if n =? 0 then destroy c s o else Ok s
  end.
End Step.

Fixpoint exec (fuel : nat) (c : ctx) (s : world) (ks : list cmd) {struct fuel} : outcome world :=
  match fuel with
  | O => Diverge
  | S f =>
      match ks with
      | [] => Ok s
      | k :: r => do s <- step (exec f) (rel f) c s k; exec f c s r
      end
  end
with rel (fuel : nat) (c : ctx) (s : world) (o : nat) {struct fuel} : outcome world :=
  match fuel with
  | O => Diverge
  | S f => release (exec f) (rel f) c s o
  end.

(** A program: [ng] global RefPtrs, initially null, and the commands of main. *)
(** A client program before its first command (am-refcounting.h:200-202: RefPtrs constructed null). *)
Definition start (ng : nat) : world := World [] (repeat None ng) [].
(** Client code outside any destructor (am-refcounting.h:128). *)
Definition main_ctx : ctx := Ctx None [] [].
(** A client program over am-refcounting.h:114-136, 187-318; not code of /repo. *)
Definition run (fuel ng : nat) (prog : list cmd) : outcome world := exec fuel main_ctx (start ng) prog.
End Reenter.
