(** Model of amtl/am-maybe.h and am-storagebuffer.h.

    A Maybe variable is (initialized_, storage).  Storage is raw bytes that may hold a T object; every T object
    ever constructed has a fresh identity and [live] lists the identities whose destructor has not run.
    [V] is the type of T's values; a moved-from T is a live object whose value is unspecified ([None]).
    Simplification: copying, moving and destroying a T do not throw and do not touch other variables. *)
From Verif Require Import Base.

Section Maybe.
Variable V : Type.
Variable debug : bool.

(** Names of Maybe variables of a client program (am-maybe.h:43-138). *)
Definition var := nat.
Definition oid := nat.

(** am-maybe.h:135-137 the two members; the storage remembers the last object placed in it. *)
Record cell := Cell { initialized : bool; storage : option (oid * option V) }.

Record state := State {
  vars : var -> option cell;     (* None: no such variable (not constructed, or destroyed) *)
  live : list oid;               (* constructed and not yet destroyed T objects *)
  next : oid                     (* next fresh identity *)
}.

Definition empty_state : state := State (fun _ => None) [] 0.

Definition set_var (s : state) (v : var) (c : option cell) : state :=
  State (fun u => if u =? v then c else vars s u) (live s) (next s).

Definition get_cell (s : state) (v : var) : outcome cell :=
  match vars s v with Some c => Ok c | None => Fault UseAfterFree end.

(** A new variable's storage is raw. *)
(** Storage for initialized_ and t_ (am-maybe.h:136-137) of a variable being declared. *)
Definition declare (s : state) (v : var) : outcome state :=
  match vars s v with Some _ => Fault BadArg | None => Ok (set_var s v (Some (Cell false None))) end.

(** t_.address()->~T() *)
(** am-maybe.h:66, 72. *)
Definition destroy_T (s : state) (v : var) : outcome state :=
  do c <- get_cell s v;
  match storage c with
  | None => Fault Uninit
  | Some (i, _) =>
    if in_dec Nat.eq_dec i (live s)
    then Ok (State (vars s) (remove Nat.eq_dec i (live s)) (next s))
    else Fault DoubleFree
  end.

(** new (t_.address()) T(x): a new object in the storage; whatever object was there is not destroyed. *)
(** am-maybe.h:74. *)
Definition construct_T (s : state) (v : var) (x : V) : outcome state :=
  do c <- get_cell s v;
  let i := next s in
  Ok (set_var (State (vars s) (i :: live s) (S i)) v (Some (Cell (initialized c) (Some (i, Some x))))).

(** Assignments to initialized_ (am-maybe.h:48-61, 75, 112, 117, 131). *)
Definition set_init (s : state) (v : var) (b : bool) : outcome state :=
  do c <- get_cell s v; Ok (set_var s v (Some (Cell b (storage c)))).

(** Reading the T in v's storage (copying from it). *)
(** *other.t_.address() and *t_.address() (am-maybe.h:88, 96, 100, 104, 125, 130). *)
Definition read_T (s : state) (v : var) : outcome V :=
  do c <- get_cell s v;
  match storage c with
  | None => Fault Uninit
  | Some (i, x) =>
    if in_dec Nat.eq_dec i (live s)
    then match x with Some y => Ok y | None => Fault MovedFrom end
    else Fault UseAfterFree
  end.

(** std::move out of the T in v's storage: yields the value, leaves the object live but moved-from. *)
Definition take_T (s : state) (v : var) : outcome (state * V) :=
  do x <- read_T s v;
  do c <- get_cell s v;
  match storage c with
  | Some (i, _) => Ok (set_var s v (Some (Cell (initialized c) (Some (i, None)))), x)
  | None => Fault Uninit
  end.

(** am-maybe.h:69-76 init(argv...) where the arguments build the value [x]; [arg] computes it at the point where
    T's constructor runs (after the old value was destroyed). *)
Definition init_with (s : state) (v : var) (arg : state -> outcome (state * V)) : outcome state :=
  do c <- get_cell s v;
  do s <- (if initialized c then destroy_T s v else Ok s);
  do (s, x) <- arg s;
  do s <- construct_T s v x;
  set_init s v true.

(** am-maybe.h:123-127 copyFrom. *)
Definition copy_from (s : state) (v w : var) : outcome state :=
  do c <- get_cell s w;
  if initialized c then init_with s v (fun s => do x <- read_T s w; Ok (s, x)) else Ok s.

(** am-maybe.h:128-133 moveFrom. *)
Definition move_from (s : state) (v w : var) : outcome state :=
  do c <- get_cell s w;
  if initialized c
  then do s <- init_with s v (fun s => take_T s w); set_init s w false
  else Ok s.

Inductive op :=
| New (v : var)                  (* Maybe<T> v;  /  Maybe<T> v = Nothing();   am-maybe.h:47-49, 60-62 *)
| CopyCtor (v w : var)           (* Maybe<T> v(w);                            :50-54 *)
| MoveCtor (v w : var)           (* Maybe<T> v(std::move(w));                 :55-59 *)
| SomeCtor (v : var) (x : V)     (* Maybe<T> v = Some(x);  with the copy elided :140-147 *)
| Init (v : var) (x : V)         (* v.init(x);                                :69-76 *)
| InitFrom (v w : var)           (* v.init( *w);                              :69-76 *)
| Assign (v w : var)             (* v = w;                                    :111-115 *)
| AssignMove (v w : var)         (* v = std::move(w);                         :116-120 *)
| Get (v : var)                  (* v.get() / *v                              :86-105 *)
| IsValid (v : var)              (* v.isValid() / bool(v)                     am-maybe.h:78-80, 107-109 *)
| Destroy (v : var).             (* ~Maybe                                    :64-67 *)

Inductive output := ONone | OVal (x : V) | OBool (b : bool).

Definition step (s : state) (o : op) : outcome (state * output) :=
  match o with
  | New v => do s <- declare s v; Ok (s, ONone)
  | CopyCtor v w => do _ <- get_cell s w; do s <- declare s v; do s <- copy_from s v w; Ok (s, ONone)
  | MoveCtor v w => do _ <- get_cell s w; do s <- declare s v; do s <- move_from s v w; Ok (s, ONone)
  | SomeCtor v x => do s <- declare s v; do s <- init_with s v (fun s => Ok (s, x)); Ok (s, ONone)
  | Init v x => do s <- init_with s v (fun s => Ok (s, x)); Ok (s, ONone)
  | InitFrom v w =>
      do c <- get_cell s w; do _ <- assert_ debug (initialized c);
      do s <- init_with s v (fun s => do x <- read_T s w; Ok (s, x)); Ok (s, ONone)
  | Assign v w => do s <- set_init s v false; do s <- copy_from s v w; Ok (s, ONone)
  | AssignMove v w => do s <- set_init s v false; do s <- move_from s v w; Ok (s, ONone)
  | Get v =>
      do c <- get_cell s v; do _ <- assert_ debug (initialized c);
      do x <- read_T s v; Ok (s, OVal x)
  | IsValid v => do c <- get_cell s v; Ok (s, OBool (initialized c))
  | Destroy v =>
      do c <- get_cell s v;
      do s <- (if initialized c then destroy_T s v else Ok s);
      Ok (set_var s v None, ONone)
  end.

Fixpoint run (s : state) (p : list op) : outcome (state * list output) :=
  match p with
  | [] => Ok (s, [])
  | o :: p' => do (s, r) <- step s o; do (s, rs) <- run s p'; Ok (s, r :: rs)
  end.

End Maybe.

Arguments New {V}. Arguments CopyCtor {V}. Arguments MoveCtor {V}. Arguments SomeCtor {V}.
Arguments Init {V}. Arguments InitFrom {V}. Arguments Assign {V}. Arguments AssignMove {V}.
Arguments Get {V}. Arguments IsValid {V}. Arguments Destroy {V}.
Arguments ONone {V}. Arguments OVal {V}. Arguments OBool {V}.
Arguments empty_state {V}. Arguments vars {V}. Arguments live {V}. Arguments next {V}.
Arguments initialized {V}. Arguments storage {V}. Arguments Cell {V}. Arguments State {V}.
Arguments set_var {V}. Arguments get_cell {V}. Arguments declare {V}. Arguments destroy_T {V}.
Arguments construct_T {V}. Arguments set_init {V}. Arguments read_T {V}. Arguments take_T {V}.
Arguments init_with {V}. Arguments copy_from {V}. Arguments move_from {V}.
