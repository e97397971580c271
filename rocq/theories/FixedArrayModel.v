(** Model of amtl/am-fixedarray.h with the allocator of am-allocator-policies.h.

    A FixedArray variable is (size_, data_); data_ is null or names a heap block.  A block is a list of element
    slots, each raw ([None]) or holding a constructed T of value [Some x].  Allocation asks an oracle whether
    the n-th am_malloc call succeeds; the requested byte count is computed in size_t arithmetic.
    Simplifications: T's constructors, assignment and destructor do not throw and touch nothing else. *)
From Verif Require Import Base.

Section FixedArray.
Variable V : Type.
Variable dflt : V.                 (* the value of T() *)
Variable veq : V -> V -> bool.     (* T's operator==, != being its negation *)
Variable w : N.                    (* width of size_t *)
Variable sz : N.                   (* sizeof(T) *)
Variable debug : bool.
Variable fallible : bool.          (* am_malloc may return null; SystemAllocatorPolicy aborts instead *)
Variable alloc_ok : nat -> bool.   (* does the n-th allocation succeed? *)

(** Names of FixedArray variables of a client program and of heap blocks (the values of data_, am-fixedarray.h:174). *)
Definition var := nat.
Definition blk := nat.

(** am-fixedarray.h:173-174 *)
Record arr := Arr { size_ : nat; data_ : option blk }.

(** The program: FixedArray variables (am-fixedarray.h:173-174) and the heap behind am_malloc / am_free (am-allocator-policies.h:50-68). *)
Record state := State {
  vars : var -> option arr;
  heap : blk -> list (option V);   (* contents of allocated blocks *)
  live : list blk;                 (* blocks allocated and not freed *)
  nalloc : nat                     (* am_malloc calls so far: the next block's name *)
}.
Definition empty_state : state := State (fun _ => None) (fun _ => []) [] 0.

Definition set_var (s : state) (v : var) (a : option arr) : state :=
  State (fun u => if u =? v then a else vars s u) (heap s) (live s) (nalloc s).
Definition set_heap (s : state) (b : blk) (c : list (option V)) : state :=
  State (vars s) (fun u => if u =? b then c else heap s u) (live s) (nalloc s).

Definition get_arr (s : state) (v : var) : outcome arr :=
  match vars s v with Some a => Ok a | None => Fault UseAfterFree end.
Definition fresh_var (s : state) (v : var) : outcome unit :=
  match vars s v with Some _ => Fault BadArg | None => Ok tt end.

(** Dereferencing data_: the block's slots. *)
(** data_[..] at am-fixedarray.h:50, 56, 105, 166. *)
Definition slots (s : state) (d : option blk) : outcome (blk * list (option V)) :=
  match d with
  | None => Fault NullDeref
  | Some b => if in_dec Nat.eq_dec b (live s) then Ok (b, heap s b) else Fault UseAfterFree
  end.

(** new (&data_[i]) T(x) *)
(** am-fixedarray.h:50, 56, 72, 81, 134. *)
Definition place (s : state) (d : option blk) (i : nat) (x : V) : outcome state :=
  do (b, c) <- slots s d;
  do old <- slot_get c i;
  match old with
  | Some _ => Fault Leak
  | None => do c <- slot_set c i (Some x); Ok (set_heap s b c)
  end.
(** data_[i].~T() *)
(** am-fixedarray.h:166. *)
Definition destroy (s : state) (d : option blk) (i : nat) : outcome state :=
  do (b, c) <- slots s d;
  do old <- slot_get c i;
  match old with
  | None => Fault DoubleFree
  | Some _ => do c <- slot_set c i None; Ok (set_heap s b c)
  end.
(** reading data_[i] *)
(** am-fixedarray.h:105, 109, 113, 117. *)
Definition read (s : state) (d : option blk) (i : nat) : outcome V :=
  do (b, c) <- slots s d;
  do x <- slot_get c i;
  match x with Some y => Ok y | None => Fault UseAfterFree end.
(** data_[i] = x *)
Definition write (s : state) (d : option blk) (i : nat) (x : V) : outcome state :=
  do _ <- read s d i;
  do (b, c) <- slots s d;
  do c <- slot_set c i (Some x); Ok (set_heap s b c).

(** am_malloc(bytes) (am-allocator-policies.h:59-68): a block of raw slots, as many whole Ts as fit. *)
Definition am_malloc (s : state) (bytes : N) : outcome (state * option blk) :=
  let b := nalloc s in
  if alloc_ok b
  then Ok (State (vars s) (fun u => if u =? b then repeat None (N.to_nat (bytes / sz)) else heap s u)
             (b :: live s) (S b), Some b)
  else if fallible then Ok (State (vars s) (heap s) (live s) (S b), None) else Fault Abort.

(** am_free(p) (am-allocator-policies.h:52-58); freeing storage that still holds constructed elements is the
    distinct fault [Leak]. *)
Definition am_free (s : state) (d : option blk) : outcome state :=
  match d with
  | None => Ok s
  | Some b =>
    if in_dec Nat.eq_dec b (live s)
    then if existsb (fun x => match x with Some _ => true | None => false end) (heap s b) then Fault Leak
         else Ok (State (vars s) (heap s) (remove Nat.eq_dec b (live s)) (nalloc s))
    else Fault DoubleFree
  end.

(** am-fixedarray.h:159-163 allocate(size). *)
Definition allocate (s : state) (v : var) (size : nat) : outcome (state * bool) :=
  do (s, d) <- am_malloc s (umul w sz (N.of_nat size));
  Ok (set_var s v (Some (Arr size d)), match d with Some _ => true | None => false end).

(** am-fixedarray.h:164-167 destruct(): for (i < size_) data_[i].~T(); [k] = iterations left. *)
Fixpoint destruct_loop (k i : nat) (s : state) (d : option blk) : outcome state :=
  match k with O => Ok s | S k => do s <- destroy s d i; destruct_loop k (i + 1) s d end.
Definition destruct_ (s : state) (a : arr) : outcome state := destruct_loop (size_ a) 0 s (data_ a).

(** for (i < size_) new (&data_[i]) T(val(i)); *)
Fixpoint construct_loop (k i : nat) (s : state) (d : option blk) (val : state -> nat -> outcome V) : outcome state :=
  match k with
  | O => Ok s
  | S k => do x <- val s i; do s <- place s d i x; construct_loop k (i + 1) s d val
  end.

(** am-fixedarray.h:103-110 at(index) (and operator[], 97-102). *)
Definition at_ (s : state) (v : var) (i : nat) : outcome V :=
  do a <- get_arr s v; do _ <- assert_ debug (i <? size_ a); read s (data_ a) i.

(** Shared shape of the allocating constructors, am-fixedarray.h:46-57, 66-82: allocate, then construct. *)
Definition build (s : state) (v : var) (size : nat) (val : state -> nat -> outcome V) : outcome state :=
  do (s, ok) <- allocate s v size;
  if ok then do a <- get_arr s v; construct_loop (size_ a) 0 s (data_ a) val else Ok s.

Inductive op :=
| NewDefault (v : var)            (* FixedArray<T> v;                        :44-45 *)
| NewSize (v : var) (n : nat)     (* FixedArray<T> v(n);                     :46-51 *)
| CopyCtor (v u : var)            (* FixedArray<T> v(u);                     :52-57 *)
| MoveCtor (v u : var)            (* FixedArray<T> v(std::move(u));          :59-64 *)
| FromVector (v : var) (l : list V) (* FixedArray<T> v(std::vector);         :66-82 *)
| AssignCopy (v u : var)          (* v = u;                                  :126-136 *)
| AssignMove (v u : var)          (* v = std::move(u);                       :137-143 *)
| GetAt (v : var) (i : nat)       (* v.at(i), v[i]                           :97-110 *)
| SetAt (v : var) (i : nat) (x : V) (* v.at(i) = x                           :97-110 *)
| Back (v : var)                  (* v.back()                                :111-118 *)
| Size (v : var)                  (* v.size()                                :94-96 *)
| IsEq (v u : var)                (* v == u                                  :145-153 *)
| Destroy (v : var).              (* ~FixedArray                             :84-87 *)

Inductive output := ONone | OVal (x : V) | ONat (n : nat) | OBool (b : bool).

(** am-fixedarray.h:148-151 *)
Fixpoint eq_loop (k i : nat) (s : state) (v u : var) : outcome bool :=
  match k with
  | O => Ok true
  | S k => do x <- at_ s v i; do y <- at_ s u i; if veq x y then eq_loop k (i + 1) s v u else Ok false
  end.

Definition step (s : state) (o : op) : outcome (state * output) :=
  match o with
  | NewDefault v => do _ <- fresh_var s v; Ok (set_var s v (Some (Arr 0 None)), ONone)
  | NewSize v n => do _ <- fresh_var s v; do s <- build s v n (fun _ _ => Ok dflt); Ok (s, ONone)
  | CopyCtor v u =>
      do _ <- fresh_var s v; do a <- get_arr s u;
      do s <- build s v (size_ a) (fun s i => at_ s u i); Ok (s, ONone)
  | MoveCtor v u =>
      do _ <- fresh_var s v; do a <- get_arr s u;
      Ok (set_var (set_var s v (Some a)) u (Some (Arr 0 None)), ONone)
  | FromVector v l =>
      do _ <- fresh_var s v; do s <- build s v (length l) (fun _ i => slot_get l i); Ok (s, ONone)
  | AssignCopy v u =>
      do a <- get_arr s v;
      do s <- destruct_ s a;
      do b <- get_arr s u;
      if size_ a =? size_ b
      then do s <- construct_loop (size_ a) 0 s (data_ a) (fun s i => at_ s u i); Ok (s, ONone)
      else do s <- am_free s (data_ a);
           do s <- build s v (size_ b) (fun s i => at_ s u i); Ok (s, ONone)
  | AssignMove v u =>
      do _ <- get_arr s v; do a <- get_arr s u;
      Ok (set_var (set_var s v (Some a)) u (Some (Arr 0 None)), ONone)
  | GetAt v i => do x <- at_ s v i; Ok (s, OVal x)
  | SetAt v i x =>
      do a <- get_arr s v; do _ <- assert_ debug (i <? size_ a);
      do s <- write s (data_ a) i x; Ok (s, ONone)
  | Back v =>
      do a <- get_arr s v; do _ <- assert_ debug (0 <? size_ a);
      do x <- read s (data_ a) (size_ a - 1); Ok (s, OVal x)
  | Size v => do a <- get_arr s v; Ok (s, ONat (size_ a))
  | IsEq v u =>
      do a <- get_arr s v; do b <- get_arr s u;
      if size_ b =? size_ a then do r <- eq_loop (size_ b) 0 s v u; Ok (s, OBool r) else Ok (s, OBool false)
  | Destroy v =>
      do a <- get_arr s v;
      do s <- destruct_ s a;
      do s <- am_free s (data_ a);
      Ok (set_var s v None, ONone)
  end.

Fixpoint run (s : state) (p : list op) : outcome (state * list output) :=
  match p with
  | [] => Ok (s, [])
  | o :: p' => do (s, r) <- step s o; do (s, rs) <- run s p'; Ok (s, r :: rs)
  end.
End FixedArray.

Arguments NewDefault {V}. Arguments NewSize {V}. Arguments CopyCtor {V}. Arguments MoveCtor {V}.
Arguments FromVector {V}. Arguments AssignCopy {V}. Arguments AssignMove {V}. Arguments GetAt {V}.
Arguments SetAt {V}. Arguments Back {V}. Arguments Size {V}. Arguments IsEq {V}. Arguments Destroy {V}.
Arguments ONone {V}. Arguments OVal {V}. Arguments ONat {V}. Arguments OBool {V}.
Arguments empty_state {V}. Arguments vars {V}. Arguments heap {V}. Arguments live {V}. Arguments nalloc {V}.
Arguments State {V}. Arguments set_var {V}. Arguments set_heap {V}. Arguments get_arr {V}.
Arguments fresh_var {V}. Arguments slots {V}. Arguments place {V}. Arguments destroy {V}. Arguments read {V}.
Arguments write {V}. Arguments am_free {V}. Arguments destruct_loop {V}. Arguments destruct_ {V}.
Arguments construct_loop {V}. Arguments am_malloc {V}. Arguments allocate {V}. Arguments at_ {V}.
Arguments build {V}. Arguments eq_loop {V}.
