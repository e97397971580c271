(** Model of amtl/am-function.h.

    A Function variable owns, through impl_, a tree: nothing, a holder in its own buffer_, or a heap holder; a
    holder contains a callable object or (after copying from a non-const lvalue Function, see below) another
    Function.  Every constructed callable object and every heap block has an id of its own; [live] lists the
    ids not yet destroyed or freed, so touching a destroyed object is detected by its id.
    Simplifications: callables are values of a type C; copying or moving one yields an object with the same
    value; their copy constructor, move constructor, call operator and destructor do not throw and touch nothing
    else; the moved-from object left by a move is only ever destroyed; the signature is R(A). *)
From Verif Require Import Base.

Section Function.
Variables C A R : Type.
Variable call : C -> A -> R.       (* what invoking the callable returns *)
Variable csize calign : C -> N.    (* sizeof and alignof the callable's type *)
Variable p : N.                    (* size of a pointer = its alignment *)
Variable dalign : N.               (* alignof(double) *)
Variable debug : bool.

(** Names of Function variables of a client program (am-function.h:96). *)
Definition var := nat.

(** Struct layout, for the sizes compared at am-function.h:204. *)
Definition round_up (x a : N) : N := ((x + a - 1) / a * a)%N.
(** am-function.h:89, 214-217: sizeof(buffer_), a union of a double and a char array of three pointer sizes. *)
Definition buffer_size : N := round_up (3 * p) dalign.
(** am-function.h:51-87: sizeof(FunctionHolder<C>) - a vtable pointer, then obj_, then padding. *)
Definition holder_size (c : C) : N :=
  round_up (round_up p (calign c) + csize c) (N.max p (calign c)).
(** sizeof(FunctionHolder<Function>): vtable pointer, impl_, buffer_ (am-function.h:213-217). *)
Definition function_size : N := round_up (round_up p dalign + buffer_size) (N.max p dalign).
Definition function_holder_size : N :=
  round_up (round_up p (N.max p dalign) + function_size) (N.max p dalign).

Inductive fobj :=
| FNull                                  (* impl_ == nullptr *)
| FInline (i : nat) (c : C)              (* impl_ == &buffer_: FunctionHolder<C>, callable object i *)
| FHeap (h : nat) (i : nat) (c : C)      (* impl_ == heap block h: FunctionHolder<C>, callable object i *)
| FHeapF (h : nat) (f : fobj).           (* impl_ == heap block h: FunctionHolder<Function> *)

Record state := State {
  vars : var -> option fobj;
  live : list nat;
  next : nat;                            (* ids handed out so far *)
  news : nat                             (* operator new calls so far *)
}.
Definition empty_state : state := State (fun _ => None) [] 0 0.
Definition set_var (s : state) (v : var) (f : option fobj) : state :=
  State (fun u => if u =? v then f else vars s u) (live s) (next s) (news s).

Definition get_fn (s : state) (v : var) : outcome fobj :=
  match vars s v with Some f => Ok f | None => Fault UseAfterFree end.
Definition fresh_var (s : state) (v : var) : outcome unit :=
  match vars s v with Some _ => Fault BadArg | None => Ok tt end.

(** Ledger: create an object, destroy it (once), or use it. *)
(** A callable object obj_ comes into being (am-function.h:57-68). *)
Definition make (s : state) : state * nat :=
  (State (vars s) (next s :: live s) (S (next s)) (news s), next s).
(** A holder on the heap comes into being (am-function.h:76 and the new of 180-211). *)
Definition new_ (s : state) : state * nat :=
  (State (vars s) (next s :: live s) (S (next s)) (S (news s)), next s).
(** Destruction of obj_ (am-function.h:70) or of a heap holder. *)
Definition kill (s : state) (i : nat) : outcome state :=
  if in_dec Nat.eq_dec i (live s)
  then Ok (State (vars s) (remove Nat.eq_dec i (live s)) (next s) (news s)) else Fault DoubleFree.
Definition use (s : state) (i : nat) : outcome unit :=
  if in_dec Nat.eq_dec i (live s) then Ok tt else Fault UseAfterFree.

(** am-function.h:160-168 destroy(): in-place destructor call, or delete.  The virtual destructor call reads the
    holder's vtable pointer first: a dead holder is a use after free. *)
Fixpoint destroy (s : state) (f : fobj) : outcome state :=
  match f with
  | FNull => Ok s
  | FInline i _ => do _ <- use s i; kill s i
  | FHeap h i _ => do _ <- use s h; do s <- kill s i; kill s h
  | FHeapF h g => do _ <- use s h; do s <- destroy s g; kill s h
  end.

(** am-function.h:178-185 assign(const Function&), with FunctionHolder::clone (74-79) and the holder's copy
    constructor (57-59), whose obj_(other.obj_) is a const copy. *)
Fixpoint assign_const (s : state) (f : fobj) : outcome (state * fobj) :=
  match f with
  | FNull => Ok (s, FNull)
  | FInline i c => do _ <- use s i; let (s, j) := make s in Ok (s, FInline j c)
  | FHeap h i c =>
      do _ <- use s h; do _ <- use s i;
      let (s, k) := new_ s in let (s, j) := make s in Ok (s, FHeap k j c)
  | FHeapF h g =>
      do _ <- use s h;
      let (s, k) := new_ s in do (s, g) <- assign_const s g; Ok (s, FHeapF k g)
  end.

(** am-function.h:199-210 assign(T&&) with a callable: in the buffer if the holder fits, else on the heap. *)
Definition assign_callable (s : state) (c : C) : state * fobj :=
  if (holder_size c <=? buffer_size)%N
  then let (s, j) := make s in (s, FInline j c)
  else let (s, k) := new_ s in let (s, j) := make s in (s, FHeap k j c).

(** am-function.h:199-210 assign(T&&) with T = Function&: what overload resolution selects for a non-const lvalue
    Function.  CallableType is Function itself, so the source is wrapped, whole, in a FunctionHolder<Function>,
    whose constructor (63-65) const-copies it. *)
Definition assign_lvalue (s : state) (f : fobj) : outcome (state * fobj) :=
  if (function_holder_size <=? buffer_size)%N
  then Fault BadArg (* not reachable: the holder contains a buffer_; see function_never_inline *)
  else let (s, k) := new_ s in do (s, g) <- assign_const s f; Ok (s, FHeapF k g).

(** am-function.h:187-197 move(Function&&): what ends up in the destination; the source becomes empty.
    For inline storage: FunctionHolder::move (80-83) then other.zap() (169-172). *)
Definition move (s : state) (u : var) : outcome (state * fobj) :=
  do f <- get_fn s u;
  match f with
  | FNull => Ok (s, FNull)
  | FInline i c =>
      do _ <- use s i;
      let (s, j) := make s in
      do s <- destroy s f;
      Ok (set_var s u (Some FNull), FInline j c)
  | _ => Ok (set_var s u (Some FNull), f)
  end.

(** am-function.h:150-153 with FunctionHolder::invoke (71-73). *)
Fixpoint invoke (s : state) (f : fobj) (a : A) : outcome R :=
  match f with
  | FNull => do _ <- assert_ debug false; Fault NullDeref
  | FInline i c => do _ <- use s i; Ok (call c a)
  | FHeap h i c => do _ <- use s h; do _ <- use s i; Ok (call c a)
  | FHeapF h g => do _ <- use s h; invoke s g a
  end.

Inductive op :=
| New (v : var)                    (* Function v; Function v(nullptr);      :101-106 *)
| FromCallable (v : var) (c : C)   (* Function v(callable);                 :114-117 *)
| CopyConst (v u : var)            (* Function v(const Function& u);        :107-109 *)
| CopyLvalue (v u : var)           (* Function v(u), u a non-const lvalue:  :114-117 *)
| MoveCtor (v u : var)             (* Function v(std::move(u));             :110-112 *)
| AssignNull (v : var)             (* v = nullptr;                          :123-127 *)
| AssignCallable (v : var) (c : C) (* v = callable;                         :139-144 *)
| AssignConst (v u : var)          (* v = u, u const:                       :128-132 *)
| AssignLvalue (v u : var)         (* v = u, u a non-const lvalue:          :139-144 *)
| AssignMove (v u : var)           (* v = std::move(u);                     :133-137 *)
| IsSet (v : var)                  (* (bool)v                               :146-148 *)
| Invoke (v : var) (a : A)         (* v(a)                                  :150-153 *)
| UsingInline (v : var)            (* v.usingInlineStorage()                :155-157 *)
| Destroy (v : var).               (* ~Function                             :119-121 *)

Inductive output := ONone | OBool (b : bool) | ORet (r : R).

Definition is_null (f : fobj) : bool := match f with FNull => true | _ => false end.
Definition is_inline (f : fobj) : bool := match f with FInline _ _ => true | _ => false end.

Definition step (s : state) (o : op) : outcome (state * output) :=
  match o with
  | New v => do _ <- fresh_var s v; Ok (set_var s v (Some FNull), ONone)
  | FromCallable v c =>
      do _ <- fresh_var s v; let (s, f) := assign_callable s c in Ok (set_var s v (Some f), ONone)
  | CopyConst v u =>
      do _ <- fresh_var s v; do g <- get_fn s u;
      do (s, f) <- assign_const s g; Ok (set_var s v (Some f), ONone)
  | CopyLvalue v u =>
      do _ <- fresh_var s v; do g <- get_fn s u;
      do (s, f) <- assign_lvalue s g; Ok (set_var s v (Some f), ONone)
  | MoveCtor v u =>
      do _ <- fresh_var s v; do (s, f) <- move s u; Ok (set_var s v (Some f), ONone)
  | AssignNull v => do f <- get_fn s v; do s <- destroy s f; Ok (set_var s v (Some FNull), ONone)
  | AssignCallable v c =>
      do f <- get_fn s v; do s <- destroy s f;
      let (s, f) := assign_callable s c in Ok (set_var s v (Some f), ONone)
  | AssignConst v u =>
      do f <- get_fn s v; do s <- destroy s f;
      do g <- get_fn s u; do (s, f) <- assign_const s g; Ok (set_var s v (Some f), ONone)
  | AssignLvalue v u =>
      do f <- get_fn s v; do s <- destroy s f;
      do g <- get_fn s u; do (s, f) <- assign_lvalue s g; Ok (set_var s v (Some f), ONone)
  | AssignMove v u =>
      (* when v = u, "other.impl_ = nullptr" is the later write *)
      do f <- get_fn s v; do s <- destroy s f;
      do (s, f) <- move s u; Ok (set_var s v (Some (if v =? u then FNull else f)), ONone)
  | IsSet v => do f <- get_fn s v; Ok (s, OBool (negb (is_null f)))
  | Invoke v a => do f <- get_fn s v; do r <- invoke s f a; Ok (s, ORet r)
  | UsingInline v => do f <- get_fn s v; Ok (s, OBool (is_inline f))
  | Destroy v => do f <- get_fn s v; do s <- destroy s f; Ok (set_var s v None, ONone)
  end.

Fixpoint run (s : state) (l : list op) : outcome (state * list output) :=
  match l with
  | [] => Ok (s, [])
  | o :: l' => do (s, r) <- step s o; do (s, rs) <- run s l'; Ok (s, r :: rs)
  end.
End Function.

Arguments FNull {C}. Arguments FInline {C}. Arguments FHeap {C}. Arguments FHeapF {C}.
Arguments State {C}. Arguments vars {C}. Arguments live {C}. Arguments next {C}. Arguments news {C}.
Arguments empty_state {C}. Arguments set_var {C}. Arguments get_fn {C}. Arguments fresh_var {C}.
Arguments make {C}. Arguments new_ {C}. Arguments kill {C}. Arguments use {C}. Arguments destroy {C}.
Arguments assign_const {C}. Arguments assign_callable {C}. Arguments assign_lvalue {C}. Arguments move {C}.
Arguments invoke {C A R}. Arguments is_null {C}. Arguments is_inline {C}. Arguments holder_size {C}.
Arguments New {C A}. Arguments FromCallable {C A}. Arguments CopyConst {C A}. Arguments CopyLvalue {C A}.
Arguments MoveCtor {C A}. Arguments AssignNull {C A}. Arguments AssignCallable {C A}.
Arguments AssignConst {C A}. Arguments AssignLvalue {C A}. Arguments AssignMove {C A}. Arguments IsSet {C A}.
Arguments Invoke {C A}. Arguments UsingInline {C A}. Arguments Destroy {C A}.
Arguments ONone {R}. Arguments OBool {R}. Arguments ORet {R}.
Arguments step {C A R}. Arguments run {C A R}.
