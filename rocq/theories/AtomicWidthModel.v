(** refcount_ of am-refcounting-threadsafe.h as the machine has it: std::atomic<size_t> (am-refcounting-threadsafe.h:68, 108), an unsigned integer
    of [width] bits that wraps.

    AtomicRefModel.v counts without bound.  The steps that touch refcount_ are transcribed again here; all others, and
    the simplifications, are those of AtomicRefModel.v. *)
From Verif Require Import Base AtomicRefModel.
Local Open Scope N_scope.

Section Width.
Variable vt : variant.
Variable debug : bool.
Variable width : nat.

(** refcount_ += 1 (am-refcounting-threadsafe.h:53, 95), after assert(!destroying_) (94). *)
Definition addrefW (h : heap) (a : N) : outcome heap :=
  match h a with
  | None => Fault UseAfterFree
  | Some ob =>
      do _ <- match vt with Plain => Ok tt | Virtual => assert_ debug (negb (dying ob)) end;
      Ok (hset h a (Some (Tobj (ser ob) (S (cnt ob) mod 2 ^ width)%nat (dying ob))))
  end.

(** One atomic step of thread [t] (am-refcounting-threadsafe.h:48-198). *)
Definition contW (s : state) (t : nat) (p : pc) (l : list N) : outcome (state * list obs) :=
  match p with
  | NewP a | Add a =>   (* am-refcounting-threadsafe.h:52-54, 93-96 *)
      do h <- addrefW (hp s) a; do s <- setpc (sethp s h) t Idle (a :: l); Ok (s, [])
  | RelSub a k =>       (* am-refcounting-threadsafe.h:56, 98: fetch_sub(1) wraps; it yields the old value *)
      match hp s a with
      | None => Fault UseAfterFree
      | Some ob =>
          let s := sethp s (hset (hp s) a (Some (Tobj (ser ob) ((cnt ob + (2 ^ width - 1)) mod 2 ^ width)%nat (dying ob)))) in
          if Nat.eqb (cnt ob) (match vt with Plain => 1%nat | Virtual => 0%nat end)
          then do s <- setpc s t (RelAssert a k) l; Ok (s, [])
          else do s <- setpc s t Idle l; Ok (s, finish t k)
      end
  | CritAdd c o v =>    (* am-refcounting-threadsafe.h:149, 158 *)
      do h <- addrefW (hp s) (target o v); do s <- setpc (sethp s h) t (UnA c o v) l; Ok (s, [])
  | CtAdd c p =>        (* am-refcounting-threadsafe.h:135-136 *)
      do h <- addrefW (hp s) p; do s <- setcell (sethp s h) c (CLive p); do s <- setpc s t Idle l; Ok (s, [])
  | _ => cont vt debug s t p l
  end.

(** A call of am-refcounting-threadsafe.h:48-162 begins, or goes on. *)
Definition stepW (s : state) (e : event) : outcome (state * list obs) :=
  match e with
  | EStart t a => do th <- slot_get (threads s) t; start debug s t (held th) a
  | ECont t => do th <- slot_get (threads s) t; contW s t (tpc th) (held th)
  end.
(** A schedule of calls of am-refcounting-threadsafe.h:48-162. *)
Fixpoint runW (s : state) (es : list event) : outcome (state * list obs) :=
  match es with
  | [] => Ok (s, [])
  | e :: r => do (s, o1) <- stepW s e; do (s, o2) <- runW s r; Ok (s, o1 ++ o2)
  end.
End Width.
