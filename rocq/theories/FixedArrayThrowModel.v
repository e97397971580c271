(** Model of amtl/am-fixedarray.h when T's constructors may throw.

    [throws k] says whether the k-th attempt to construct a T throws; every statement of the client program is inside
    its own try/catch.  A block of storage is a list of slots, raw ([None]) or holding a constructed T.  Blocks are
    kept with the one variable whose data_ points to them, since a block never has two owners between statements; a
    block whose last pointer goes away without am_free moves to [leaked].
    Simplifications: T's destructor and operators do not throw, allocation succeeds and sizes fit size_t (see
    FixedArrayModel.v for those), and release builds only (assert does nothing, accesses are checked anyway). *)
From Verif Require Import Base.

Section FixedArrayThrow.
Variable V : Type.
Variable dflt : V.                 (* the value of T() *)
Variable throws : nat -> bool.

(** Names of FixedArray variables (am-fixedarray.h:39). *)
Definition var := nat.
(** The storage behind data_ (am-fixedarray.h:174). *)
Definition block := list (option V).
(** am-fixedarray.h:173-174 *)
Record arr := Arr { size_ : nat; data_ : option block }.
(** The program's variables (am-fixedarray.h:39-175), the attempts to construct a T so far, the storage leaked. *)
Record state := State { vars : var -> option arr; attempts : nat; leaked : list block }.
Definition empty_state : state := State (fun _ => None) 0 [].

(** Whether a statement completed or left with an exception, and what it yielded. *)
Inductive result := Done | Val (x : V) | Num (n : nat) | Threw.

(** The members (am-fixedarray.h:173-174) of one variable. *)
Definition set_var (s : state) (v : var) (a : option arr) : state :=
  State (fun u => if u =? v then a else vars s u) (attempts s) (leaked s).
(** Naming a variable (am-fixedarray.h:39) that exists / does not exist yet. *)
Definition get_arr (s : state) (v : var) : outcome arr :=
  match vars s v with Some a => Ok a | None => Fault UseAfterFree end.
Definition fresh_var (s : state) (v : var) : outcome unit :=
  match vars s v with Some _ => Fault BadArg | None => Ok tt end.

(** data_[i] of a possibly null data_ (am-fixedarray.h:50, 56, 105, 134, 166). *)
Definition slots (d : option block) : outcome block :=
  match d with None => Fault NullDeref | Some b => Ok b end.

(** Reading data_[i] (am-fixedarray.h:105, 109). *)
Definition read (d : option block) (i : nat) : outcome V :=
  do b <- slots d; do x <- slot_get b i; match x with Some y => Ok y | None => Fault Uninit end.

(** data_[i].~T() (am-fixedarray.h:166): destroying what is not a constructed T is the fault. *)
Definition destroy (d : option block) (i : nat) : outcome (option block) :=
  do b <- slots d;
  do old <- slot_get b i;
  match old with
  | None => Fault DoubleFree
  | Some _ => do b <- slot_set b i None; Ok (Some b)
  end.

(** new (&data_[i]) T(x) (am-fixedarray.h:50, 56, 72, 81, 134); a T already in the slot would be lost. *)
Definition place (d : option block) (i : nat) (x : V) : outcome (option block) :=
  do b <- slots d;
  do old <- slot_get b i;
  match old with
  | Some _ => Fault Leak
  | None => do b <- slot_set b i (Some x); Ok (Some b)
  end.

(** for (i < size_) new (&data_[i]) T(val(i)); (am-fixedarray.h:49-50, 55-56, 71-72, 80-81, 133-134).
    [k] iterations are left, [n] constructions were attempted; false: the last attempt threw. *)
Fixpoint construct_loop (k i n : nat) (d : option block) (val : nat -> outcome V)
    : outcome (option block * nat * bool) :=
  match k with
  | O => Ok (d, n, true)
  | S k =>
      do x <- val i;
      if throws n then do _ <- slots d; Ok (d, S n, false)
      else do d <- place d i x; construct_loop k (i + 1) (S n) d val
  end.

(** am-fixedarray.h:164-167 destruct(). *)
Fixpoint destruct_loop (k i : nat) (d : option block) : outcome (option block) :=
  match k with O => Ok d | S k => do d <- destroy d i; destruct_loop k (i + 1) d end.

(** am_free(data_) (am-fixedarray.h:168-170); freeing storage that holds constructed Ts is the fault. *)
Definition deallocate (d : option block) : outcome unit :=
  match d with
  | None => Ok tt
  | Some b => if existsb (fun x => match x with Some _ => true | None => false end) b then Fault Leak else Ok tt
  end.

(** A data_ that is overwritten or goes away without am_free (am-fixedarray.h:137-143, 173-174). *)
Definition drop (s : state) (d : option block) : state :=
  State (vars s) (attempts s) (match d with None => leaked s | Some b => leaked s ++ [b] end).

(** The allocating constructors (am-fixedarray.h:46-57, 66-82) with allocate (:159-163): when a T's constructor
    throws, ~FixedArray does not run, and the members go away. *)
Definition build (s : state) (v : var) (n : nat) (val : nat -> outcome V) : outcome (state * result) :=
  do (dn, ok) <- construct_loop n 0 (attempts s) (Some (repeat None n)) val;
  let (d, k) := dn : option block * nat in
  let s := State (vars s) k (leaked s) in
  if ok then Ok (set_var s v (Some (Arr n d)), Done) else Ok (drop s d, Threw).

(** at(i) (am-fixedarray.h:97-110) of variable u. *)
Definition at_ (s : state) (u : var) (i : nat) : outcome V := do a <- get_arr s u; read (data_ a) i.

(** Statements of a client program, each inside try/catch. *)
Inductive op :=
| NewDefault (v : var)              (* am-fixedarray.h:44-45 *)
| NewSize (v : var) (n : nat)       (* am-fixedarray.h:46-51 *)
| CopyCtor (v u : var)              (* am-fixedarray.h:52-57 *)
| MoveCtor (v u : var)              (* am-fixedarray.h:59-64 *)
| FromVector (v : var) (l : list V) (* am-fixedarray.h:66-82 *)
| AssignCopy (v u : var)            (* am-fixedarray.h:126-136 *)
| AssignMove (v u : var)            (* am-fixedarray.h:137-143 *)
| GetAt (v : var) (i : nat)         (* am-fixedarray.h:97-110 *)
| Size (v : var)                    (* am-fixedarray.h:94-96 *)
| Destroy (v : var).                (* am-fixedarray.h:84-87 *)

(** One statement (am-fixedarray.h:44-167). *)
Definition step (s : state) (o : op) : outcome (state * result) :=
  match o with
  | NewDefault v => do _ <- fresh_var s v; Ok (set_var s v (Some (Arr 0 None)), Done)
  | NewSize v n => do _ <- fresh_var s v; build s v n (fun _ => Ok dflt)
  | CopyCtor v u => do _ <- fresh_var s v; do a <- get_arr s u; build s v (size_ a) (at_ s u)
  | MoveCtor v u =>
      do _ <- fresh_var s v; do a <- get_arr s u;
      Ok (set_var (set_var s v (Some a)) u (Some (Arr 0 None)), Done)
  | FromVector v l => do _ <- fresh_var s v; build s v (length l) (slot_get l)
  | AssignCopy v u =>
      do a <- get_arr s v;
      do d <- destruct_loop (size_ a) 0 (data_ a);
      do b <- get_arr s u;
      let s := set_var s v (Some (Arr (size_ a) d)) in
      do d <- (if size_ a =? size_ b then Ok d
               else do _ <- deallocate d; Ok (Some (repeat None (size_ b))));
      do (dn, ok) <- construct_loop (size_ b) 0 (attempts s) d (at_ s u);
      let (d, k) := dn : option block * nat in
      let s := State (vars s) k (leaked s) in
      Ok (set_var s v (Some (Arr (size_ b) d)), if ok then Done else Threw)
  | AssignMove v u =>
      do a <- get_arr s v; do b <- get_arr s u;
      let s := drop s (data_ a) in
      Ok (set_var (set_var s v (Some b)) u (Some (Arr 0 None)), Done)
  | GetAt v i => do x <- at_ s v i; Ok (s, Val x)
  | Size v => do a <- get_arr s v; Ok (s, Num (size_ a))
  | Destroy v =>
      do a <- get_arr s v;
      do d <- destruct_loop (size_ a) 0 (data_ a);
      do _ <- deallocate d;
      Ok (set_var s v None, Done)
  end.

(** A client program using am-fixedarray.h:44-167. *)
Fixpoint run (s : state) (p : list op) : outcome (state * list result) :=
  match p with
  | [] => Ok (s, [])
  | o :: p' => do (s, r) <- step s o; do (s, rs) <- run s p'; Ok (s, r :: rs)
  end.
End FixedArrayThrow.

Arguments NewDefault {V}. Arguments NewSize {V}. Arguments CopyCtor {V}. Arguments MoveCtor {V}.
Arguments FromVector {V}. Arguments AssignCopy {V}. Arguments AssignMove {V}. Arguments GetAt {V}.
Arguments Size {V}. Arguments Destroy {V}.
Arguments Done {V}. Arguments Val {V}. Arguments Num {V}. Arguments Threw {V}.
Arguments empty_state {V}. Arguments vars {V}. Arguments attempts {V}. Arguments leaked {V}. Arguments State {V}.
Arguments Arr {V}. Arguments size_ {V}. Arguments data_ {V}. Arguments slots {V}. Arguments read {V}.
Arguments destroy {V}. Arguments place {V}. Arguments destruct_loop {V}. Arguments deallocate {V}.
Arguments set_var {V}. Arguments get_arr {V}. Arguments fresh_var {V}. Arguments drop {V}. Arguments at_ {V}.
