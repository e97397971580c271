(** Model of ke::Function (amtl/am-function.h) holding callables whose bodies and destructors use Functions themselves, so that
    an assignment or a call re-enters the Functions of the program.

    FunctionModel.v covers callables that run no code of their own when copied or destroyed.  Here a callable class has a body
    and destructors, lists of commands on the Functions of the program.  The destructor may do different things when the
    callable was moved from.  Simplifications: the Functions are global variables (no Function is captured by a callable);
    constructors of callables run no commands; the arguments and results of calls are left out.  [fuel] bounds the length of
    the whole execution: callables can call each other without end. *)
From Verif Require Import Base.

(** Life of a callable inside its FunctionHolder: am-function.h:51-87. *)
Inductive ostate := Alive | Dying | Dead.
(** A FunctionHolder with its callable (am-function.h:51-87): class, whether it was moved from, stage of its life. *)
Record obj := Obj { cls : nat; moved : bool; st : ostate }.
(** impl_ (am-function.h:213): null, the address of the own buffer, or a block of the heap. *)
Inductive ptr := PNull | PIn | PHeap (id : nat).
(** A Function (am-function.h:213-217): impl_ and the object last constructed in buffer_. *)
Record fn := Fn { impl : ptr; buf : option nat }.
(** What client code can notice: a call of a callable, the answer of operator bool, and the start of a destructor of a
    callable (am-function.h:71-73, 146-148, 70). *)
Inductive event := Called (c : nat) | Tested (b : bool) | Dropped (c : nat) (m : bool).
(** The Functions of a program and the callables constructed so far (am-function.h:51-87, 213-217); [log] has the latest event first. *)
Record world := World { objs : list obj; fns : list fn; log : list event }.

(** Statements of client code: am-function.h:123-153. *)
Inductive cmd :=
| Clear (f : nat)               (* f = nullptr;                       am-function.h:123-127 *)
| Set_ (f c : nat) (tmp : bool) (* f = C(...) if tmp, else f = a long-lived C;   139-144 *)
| Copy (f g : nat)              (* f = g;                             128-132 *)
| Move (f g : nat)              (* f = std::move(g);                  133-137 *)
| Call (f : nat)                (* if (f) f();                        146-153 *)
| Test (f : nat)                (* client code looks at bool(f)       146-148 *)
| Use.                          (* the running callable uses its captures: obj_ of am-function.h:86 *)

Section FnReenter.
(** Whether FunctionHolder<C> fits into buffer_ (am-function.h:204), the operator () and the destructor of class C. *)
Variable inline : nat -> bool.
Variable body : nat -> list cmd.
Variable dtor : nat -> bool -> list cmd.

(** impl_ of a Function (am-function.h:213). *)
Definition get (s : world) (f : nat) : outcome fn := slot_get (fns s) f.
(** Assignments to impl_ (am-function.h:125, 171, 180-184, 189-195, 205-208). *)
Definition set_impl (s : world) (f : nat) (p : ptr) : outcome world :=
  do x <- get s f; Ok (World (objs s) (upd (fns s) f (Fn p (buf x))) (log s)).
(** Changes of the state of a callable (am-function.h:61, 70). *)
Definition set_obj (s : world) (i : nat) (o : obj) : world := World (upd (objs s) i o) (fns s) (log s).
(** Something client code notices (am-function.h:70-73, 146-148). *)
Definition note (s : world) (e : event) : world := World (objs s) (fns s) (e :: log s).
(** The object impl_ points to (am-function.h:152, 161-167). *)
Definition deref (x : fn) : outcome nat :=
  match impl x with
  | PNull => Fault NullDeref
  | PIn => match buf x with Some i => Ok i | None => Fault Uninit end
  | PHeap i => Ok i
  end.
(** A virtual call on the holder needs an object whose destructor has not started: am-function.h:152, 182-184, 191. *)
Definition alive (s : world) (i : nat) : outcome obj :=
  do o <- slot_get (objs s) i; match st o with Alive => Ok o | _ => Fault UseAfterFree end.
(** new (inline_buffer()) ImplType or new ImplType, and the assignment to impl_: am-function.h:74-83, 182-184, 191, 204-209.
    Constructing over an object that was not destroyed loses it. *)
Definition construct (s : world) (f : nat) (inl : bool) (c : nat) (m : bool) : outcome world :=
  let n := length (objs s) in
  if inl then
    do x <- get s f;
    do _ <- match buf x with
            | None => Ok tt
            | Some i => do o <- slot_get (objs s) i; match st o with Dead => Ok tt | _ => Fault Leak end
            end;
    Ok (World (objs s ++ [Obj c m Alive]) (upd (fns s) f (Fn PIn (Some n))) (log s))
  else do x <- get s f; Ok (World (objs s ++ [Obj c m Alive]) (upd (fns s) f (Fn (PHeap n) (buf x))) (log s)).

(** One command, given how to run a list of commands on behalf of an object. *)
Section Step.
Variable exec : option nat -> world -> list cmd -> outcome world.
(** The destructor of a callable: am-function.h:70, 164-167. *)
Definition kill (s : world) (i : nat) : outcome world :=
  do o <- slot_get (objs s) i;
  match st o with
  | Alive =>
      let s := note (set_obj s i (Obj (cls o) (moved o) Dying)) (Dropped (cls o) (moved o)) in
      do s <- exec (Some i) s (dtor (cls o) (moved o));
      Ok (set_obj s i (Obj (cls o) (moved o) Dead))
  | _ => Fault DoubleFree
  end.
(** destroy(): am-function.h:160-168; impl_ stays as it is. *)
Definition destroy (s : world) (f : nat) : outcome world :=
  do x <- get s f;
  match impl x with PNull => Ok s | _ => do i <- deref x; kill s i end.
(** zap(): am-function.h:169-172. *)
Definition zap (s : world) (f : nat) : outcome world := do s <- destroy s f; set_impl s f PNull.
(** assign(const Function&): am-function.h:178-185. *)
Definition assign (s : world) (f g : nat) : outcome world :=
  do y <- get s g;
  match impl y with
  | PNull => set_impl s f PNull
  | PIn => do i <- deref y; do o <- alive s i; construct s f true (cls o) (moved o)
  | PHeap i => do o <- alive s i; construct s f false (cls o) (moved o)
  end.
(** move(Function&&): am-function.h:187-197. *)
Definition move (s : world) (f g : nat) : outcome world :=
  do y <- get s g;
  match impl y with
  | PNull => set_impl s f PNull
  | PIn =>
      do i <- deref y; do o <- alive s i;
      do s <- construct s f true (cls o) (moved o);
      zap (set_obj s i (Obj (cls o) true Alive)) g
  | PHeap i => do s <- set_impl s f (PHeap i); set_impl s g PNull
  end.
(** One statement of client code: am-function.h:123-153. *)
Definition step (this : option nat) (s : world) (k : cmd) : outcome world :=
  match k with
  | Clear f => zap s f                                                     (* 123-127 *)
  | Set_ f c tmp =>                                                        (* 139-144, 199-210 *)
      do s <- destroy s f;
      do s <- construct s f (inline c) c false;
      if tmp then
        let n := length (objs s) in
        (* the temporary: only its destructor matters *)
        kill (World (objs s ++ [Obj c false Alive]) (fns s) (log s)) n
      else Ok s
  | Copy f g => do s <- destroy s f; assign s f g                          (* 128-132 *)
  | Move f g => do s <- destroy s f; move s f g                            (* 133-137 *)
  | Call f =>                                                              (* 146-153 *)
      do x <- get s f;
      match impl x with
      | PNull => Ok s
      | _ => do i <- deref x; do o <- alive s i; exec (Some i) (note s (Called (cls o))) (body (cls o))
      end
  | Test f => do x <- get s f; Ok (note s (Tested (match impl x with PNull => false | _ => true end)))
  | Use =>
      match this with
      | None => Ok s
      | Some i => do o <- slot_get (objs s) i; match st o with Dead => Fault UseAfterFree | _ => Ok s end
      end
  end.
End Step.

(** A list of statements, one after the other (the calls they make: am-function.h:71-73, 146-153). *)
Fixpoint exec (fuel : nat) (this : option nat) (s : world) (ks : list cmd) : outcome world :=
  match fuel with
  | O => Diverge
  | S fu =>
      match ks with
      | [] => Ok s
      | k :: r => do s <- step (exec fu) this s k; exec fu this s r
      end
  end.

(** A client program before its first command: [n] Functions constructed empty (am-function.h:101-103). *)
Definition start (n : nat) : world := World [] (repeat (Fn PNull None) n) [].
(** The commands of main, outside any callable (am-function.h:71-73). *)
Definition run (fuel n : nat) (prog : list cmd) : outcome world := exec fuel None (start n) prog.
End FnReenter.
