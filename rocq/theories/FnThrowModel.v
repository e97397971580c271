(** Model of amtl/am-function.h when the constructors of callables may throw.

    [throws k] says whether the k-th attempt to construct a callable (by copying or moving one into a holder) throws;
    every statement of the client program is inside its own try/catch.  A callable is a value and whether it was
    moved from ([true]); [fits x] says whether a holder of x's type fits the inline buffer.
    A heap holder is kept with the one Function that owns it.
    Simplifications: destructors and calls do not throw; a throwing new expression releases its memory, as the
    language guarantees; the sources of copies are const Functions (see FnNestModel.v for v = w with a non-const w,
    which the template overload takes); no self-assignment. *)
From Verif Require Import Base.

Section FnThrow.
Variable V : Type.
Variable fits : V -> bool.
Variable throws : nat -> bool.

(** Names of Function variables (am-function.h:96-218). *)
Definition var := nat.
(** T obj_ (am-function.h:86): the callable in a holder. *)
Definition callable := (V * bool)%type.
(** What impl_ points to (am-function.h:213): nothing, buffer_, or a holder on the heap. *)
Inductive target := Null | Inline | Heap.
(** am-function.h:213-217: impl_, the holder in buffer_ if there is one, the heap holder if it exists (a deleted
    holder, or none, is [None]). *)
Record fn := Fn { impl_ : target; buffer_ : option callable; heap_ : option callable }.
(** The program's variables (am-function.h:96-218) and the attempts to construct a callable so far. *)
Record state := State { vars : var -> option fn; attempts : nat }.
Definition empty_state : state := State (fun _ => None) 0.

(** Whether a statement completed or left with an exception, and what it yielded. *)
Inductive result := Done | Called (c : callable) | IsB (b : bool) | Threw.

(** The storage (am-function.h:213-217) of one variable. *)
Definition set_var (s : state) (v : var) (f : option fn) : state :=
  State (fun u => if u =? v then f else vars s u) (attempts s).
(** Naming a variable (am-function.h:96) that exists / does not exist yet. *)
Definition get_fn (s : state) (v : var) : outcome fn :=
  match vars s v with Some f => Ok f | None => Fault UseAfterFree end.
Definition fresh_var (s : state) (v : var) : outcome unit :=
  match vars s v with Some _ => Fault BadArg | None => Ok tt end.

(** am-function.h:160-168 destroy(): impl_ keeps its value. *)
Definition destroy (f : fn) : outcome fn :=
  match impl_ f with
  | Null => Ok f
  | Inline => match buffer_ f with Some _ => Ok (Fn Inline None (heap_ f)) | None => Fault DoubleFree end
  | Heap => match heap_ f with Some _ => Ok (Fn Heap (buffer_ f) None) | None => Fault DoubleFree end
  end.

(** new (inline_buffer()) ImplType(..) (am-function.h:77, 81, 206); false when the callable's constructor threw. *)
Definition construct_inline (f : fn) (n : nat) (c : callable) : outcome (fn * nat * bool) :=
  match buffer_ f with
  | Some _ => Fault Leak
  | None => if throws n then Ok (f, S n, false) else Ok (Fn (impl_ f) (Some c) (heap_ f), S n, true)
  end.
(** new ImplType(..) (am-function.h:76, 208). *)
Definition construct_heap (f : fn) (n : nat) (c : callable) : outcome (fn * nat * bool) :=
  match heap_ f with
  | Some _ => Fault Leak
  | None => if throws n then Ok (f, S n, false) else Ok (Fn (impl_ f) (buffer_ f) (Some c), S n, true)
  end.
(** impl_ = <result of the construction> (am-function.h:182, 184, 191, 208): skipped by an exception. *)
Definition set_impl (t : target) (r : outcome (fn * nat * bool)) : outcome (fn * nat * bool) :=
  do (fk, ok) <- r;
  let (f, k) := fk : fn * nat in
  Ok (if ok then Fn t (buffer_ f) (heap_ f) else f, k, ok).

(** The holder impl_ points to (am-function.h:150-153, 182-191). *)
Definition held (f : fn) : outcome callable :=
  match impl_ f with
  | Null => Fault NullDeref
  | Inline => match buffer_ f with Some c => Ok c | None => Fault UseAfterFree end
  | Heap => match heap_ f with Some c => Ok c | None => Fault UseAfterFree end
  end.

(** am-function.h:178-185 assign(const Function&). *)
Definition assign_fn (f : fn) (n : nat) (o : fn) : outcome (fn * nat * bool) :=
  match impl_ o with
  | Null => Ok (Fn Null (buffer_ f) (heap_ f), n, true)
  | Inline => do c <- held o; set_impl Inline (construct_inline f n c)
  | Heap => do c <- held o; set_impl Heap (construct_heap f n c)
  end.

(** am-function.h:187-197 move(Function&&): the new f, the new other. *)
Definition move_fn (f : fn) (n : nat) (o : fn) : outcome (fn * fn * nat * bool) :=
  match impl_ o with
  | Null => Ok (Fn Null (buffer_ f) (heap_ f), o, n, true)
  | Inline =>
      do c <- held o;
      do (fk, ok) <- set_impl Inline (construct_inline f n c);
      let (f, k) := fk : fn * nat in
      let o := Fn Inline (Some (fst c, true)) (heap_ o) in
      if ok then do o <- destroy o; Ok (f, Fn Null (buffer_ o) (heap_ o), k, true) else Ok (f, o, k, false)
  | Heap =>
      match heap_ f with
      | Some _ => Fault Leak
      | None => Ok (Fn Heap (buffer_ f) (heap_ o), Fn Null (buffer_ o) None, n, true)
      end
  end.

(** am-function.h:199-210 assign(T&&): in the inline case impl_ is set before the construction. *)
Definition assign_obj (f : fn) (n : nat) (x : V) : outcome (fn * nat * bool) :=
  if fits x then construct_inline (Fn Inline (buffer_ f) (heap_ f)) n (x, false)
  else set_impl Heap (construct_heap f n (x, false)).

(** A Function whose storage is uninitialized (am-function.h:213-217) before a constructor's body. *)
Definition raw : fn := Fn Null None None.

(** The storage of a variable goes away (am-function.h:213-217): a holder still in it would leak. *)
Definition discard (s : state) (v : var) (f : fn) : outcome state :=
  match buffer_ f, heap_ f with None, None => Ok (set_var s v None) | _, _ => Fault Leak end.

(** Ends a constructor: when it threw, ~Function does not run (am-function.h:107-117). *)
Definition end_ctor (s : state) (v : var) (f : fn) (k : nat) (ok : bool) : outcome (state * result) :=
  let s := State (vars s) k in
  if ok then Ok (set_var s v (Some f), Done) else do s <- discard s v f; Ok (s, Threw).
(** Ends an assignment: the Function stays as it is (am-function.h:123-144). *)
Definition end_assign (s : state) (v : var) (f : fn) (k : nat) (ok : bool) : outcome (state * result) :=
  Ok (set_var (State (vars s) k) v (Some f), if ok then Done else Threw).

(** Statements of a client program, each inside try/catch. *)
Inductive op :=
| New (v : var)                 (* am-function.h:101-106 *)
| CopyCtor (v w : var)          (* am-function.h:107-109 *)
| MoveCtor (v w : var)          (* am-function.h:110-112 *)
| FromObj (v : var) (x : V)     (* am-function.h:114-117 *)
| AssignNull (v : var)          (* am-function.h:123-127 *)
| Assign (v w : var)            (* am-function.h:128-132 *)
| AssignMove (v w : var)        (* am-function.h:133-137 *)
| AssignObj (v : var) (x : V)   (* am-function.h:139-144 *)
| Call (v : var)                (* am-function.h:150-153 *)
| AsBool (v : var)              (* am-function.h:146-148 *)
| Destroy (v : var).            (* am-function.h:119-121 *)

(** One statement (am-function.h:101-210). *)
Definition step (s : state) (o : op) : outcome (state * result) :=
  let n := attempts s in
  match o with
  | New v => do _ <- fresh_var s v; Ok (set_var s v (Some raw), Done)
  | CopyCtor v w =>
      do _ <- fresh_var s v; do g <- get_fn s w;
      do (fk, ok) <- assign_fn raw n g; let (f, k) := fk : fn * nat in end_ctor s v f k ok
  | MoveCtor v w =>
      do _ <- fresh_var s v; do g <- get_fn s w;
      do (fgk, ok) <- move_fn raw n g; let '(f, g, k) := fgk : fn * fn * nat in
      end_ctor (set_var s w (Some g)) v f k ok
  | FromObj v x =>
      do _ <- fresh_var s v;
      do (fk, ok) <- assign_obj raw n x; let (f, k) := fk : fn * nat in end_ctor s v f k ok
  | AssignNull v =>
      do f <- get_fn s v; do f <- destroy f; Ok (set_var s v (Some (Fn Null (buffer_ f) (heap_ f))), Done)
  | Assign v w =>
      do f <- get_fn s v; do f <- destroy f; do g <- get_fn s w;
      do (fk, ok) <- assign_fn f n g; let (f, k) := fk : fn * nat in end_assign s v f k ok
  | AssignMove v w =>
      do f <- get_fn s v; do f <- destroy f; do g <- get_fn s w;
      do (fgk, ok) <- move_fn f n g; let '(f, g, k) := fgk : fn * fn * nat in
      end_assign (set_var s w (Some g)) v f k ok
  | AssignObj v x =>
      do f <- get_fn s v; do f <- destroy f;
      do (fk, ok) <- assign_obj f n x; let (f, k) := fk : fn * nat in end_assign s v f k ok
  | Call v => do f <- get_fn s v; do c <- held f; Ok (s, Called c)
  | AsBool v => do f <- get_fn s v; Ok (s, IsB (match impl_ f with Null => false | _ => true end))
  | Destroy v => do f <- get_fn s v; do f <- destroy f; do s <- discard s v f; Ok (s, Done)
  end.

(** A client program using am-function.h:96-218. *)
Fixpoint run (s : state) (p : list op) : outcome (state * list result) :=
  match p with
  | [] => Ok (s, [])
  | o :: p' => do (s, r) <- step s o; do (s, rs) <- run s p'; Ok (s, r :: rs)
  end.
End FnThrow.

Arguments New {V}. Arguments CopyCtor {V}. Arguments MoveCtor {V}. Arguments FromObj {V}. Arguments AssignNull {V}.
Arguments Assign {V}. Arguments AssignMove {V}. Arguments AssignObj {V}. Arguments Call {V}. Arguments AsBool {V}.
Arguments Destroy {V}. Arguments Done {V}. Arguments Called {V}. Arguments IsB {V}. Arguments Threw {V}.
Arguments empty_state {V}. Arguments vars {V}. Arguments attempts {V}. Arguments State {V}.
Arguments Fn {V}. Arguments impl_ {V}. Arguments buffer_ {V}. Arguments heap_ {V}.
